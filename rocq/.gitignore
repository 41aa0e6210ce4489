*.vo
*.vok
*.vos
*.glob
*.aux
Makefile
Makefile.conf
.Makefile.d
*.d
.lia.cache
.nia.cache
*.vo
*.vos
*.vok
*.glob
*.aux
Makefile*
.Makefile.d
