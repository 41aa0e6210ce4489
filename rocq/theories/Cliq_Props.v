(** * Maximal cliques (C64)

    Each algorithm lists every maximal clique of the graph, once, whatever the order in
    which the sets of the program are iterated. *)
From Coq Require Import ZArith List Lia Bool Permutation.
From Verif Require Import Base Py Dict Gen Lists Lists2 Graph_Model Graph_Spec Graph_Proofs Trav_Model Trav_Proofs Cliq_Model Cliq_Spec Cliq_Proofs Mask_Proofs Cliq_Proofs2.
Import ListNotations.
Open Scope Z_scope.

(** [pick used allowed] is the vertex that [allowed.pop()] takes. *)
Theorem C64_bron_kerbosch g pick : undirected g -> (forall used allowed, allowed <> [] -> In (pick used allowed) allowed) ->
  lists_once (maximal_clique g) (bron_kerbosch g pick).
Proof. intros Hg Hp. apply bron_kerbosch_ok; assumption. Qed.

Theorem C64_bron_kerbosch_binary g : undirected g ->
  exists L, bron_kerbosch_binary g = Ret L /\ lists_once (maximal_clique g) L.
Proof. apply bron_kerbosch_binary_ok. Qed.

(** [ord r l] is the order in which a set with the elements l is iterated. *)
Theorem C64_tomita g ord : undirected g -> loop_free g -> (forall r l, Permutation (ord r l) l) ->
  exists L, yields (tomita g ord) L /\ lists_once (maximal_clique g) L.
Proof. intros Hg Hl Ho. apply tomita_ok; assumption. Qed.

(** The three agree as families of sets. *)
Theorem C64_agree g pick ord : undirected g -> loop_free g -> (forall used allowed, allowed <> [] -> In (pick used allowed) allowed) ->
  (forall r l, Permutation (ord r l) l) ->
  exists L1 L2, bron_kerbosch_binary g = Ret L1 /\ yields (tomita g ord) L2 /\
    forall c, ((exists c', In c' (bron_kerbosch g pick) /\ same_elements c c') <-> (exists c', In c' L1 /\ same_elements c c')) /\
              ((exists c', In c' L1 /\ same_elements c c') <-> (exists c', In c' L2 /\ same_elements c c')).
Proof.
  intros Hg Hl Hp Ho. destruct (C64_bron_kerbosch_binary g Hg) as (L1 & E1 & A1 & B1 & _). destruct (C64_tomita g ord Hg Hl Ho) as (L2 & E2 & A2 & B2 & _).
  destruct (C64_bron_kerbosch g pick Hg Hp) as (A0 & B0 & _). exists L1, L2. split; [exact E1|]. split; [exact E2|].
  assert (K : forall L L' : list (list Z), (forall c, In c L -> maximal_clique g c) -> (forall c, maximal_clique g c -> exists c', In c' L' /\ same_elements c c') ->
     forall c, (exists c', In c' L /\ same_elements c c') -> exists c', In c' L' /\ same_elements c c').
  { intros L L' A B c (c' & H1 & H2). destruct (B c' (A c' H1)) as (c'' & H3 & H4). exists c''. split; [exact H3|apply (same_trans c c' c''); assumption]. }
  intros c. split; split; apply K; assumption.
Qed.

(** ** The hypotheses can be met *)
Definition c_ex : graph := add_edges (add_vertex empty_graph 7) [(1, 2, 1); (1, 3, 1); (2, 3, 1); (3, 4, 1); (4, 5, 1); (5, 3, 1)].

Lemma c_ex_ok : undirected c_ex.
Proof. apply (history_undirected [OpAddVertex 7; OpAddEdges [(1, 2, 1); (1, 3, 1); (2, 3, 1); (3, 4, 1); (4, 5, 1); (5, 3, 1)]]). Qed.

Lemma c_ex_loop_free : loop_free c_ex.
Proof.
  intros u. destruct (Z.eq_dec u 1) as [->|]; [reflexivity|]. destruct (Z.eq_dec u 2) as [->|]; [reflexivity|]. destruct (Z.eq_dec u 3) as [->|]; [reflexivity|].
  destruct (Z.eq_dec u 4) as [->|]; [reflexivity|]. destruct (Z.eq_dec u 5) as [->|]; [reflexivity|]. destruct (Z.eq_dec u 7) as [->|]; [reflexivity|].
  unfold weight. replace (dget c_ex u) with (@None (list (Z * Z))); [reflexivity|]. symmetry. apply dget_None. vm_compute. intuition congruence.
Qed.

Example C64_ex : undirected c_ex /\ loop_free c_ex /\
  bron_kerbosch c_ex (fun _ l => last l 0) = [[5; 4; 3]; [3; 2; 1]; [7]] /\
  bron_kerbosch_binary c_ex = Ret [[1; 2; 3]; [3; 4; 5]; [7]] /\
  tomita c_ex (fun _ l => rev l) 100 = ([[7]; [3; 2; 1]; [3; 5; 4]], GEnded).
Proof. split; [apply c_ex_ok|]. split; [apply c_ex_loop_free|]. vm_compute. auto. Qed.

Print Assumptions C64_bron_kerbosch.
Print Assumptions C64_bron_kerbosch_binary.
Print Assumptions C64_tomita.
Print Assumptions C64_agree.
