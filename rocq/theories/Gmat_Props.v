(** * C90: the adjacency, degree and Laplacian matrices, and the density of a graph *)
From Coq Require Import ZArith QArith Qabs Lqa List Lia Bool Permutation Sorted.
From Verif Require Import Base Py Dict Lists Lists2 Graph_Model Graph_Spec Graph_Proofs Graph_Proofs2 Graph_Props Color_Spec Mat_Spec Mat_Model Mat_Proofs Mat_Props Double_Model Double_Proofs Double_Proofs2 Gmat_Model Gmat_Proofs.
Import ListNotations.
Open Scope Z_scope.

(** [vs] lists the vertices in increasing order. *)
Definition in_order (g : graph) (vs : list Z) : Prop := StronglySorted Z.lt vs /\ forall u, In u vs <-> vertex g u.

Lemma in_order_vertices g : undirected g -> in_order g (vertices g).
Proof. intros Hg. split; [apply zsort_strict, Hg|apply vs_In]. Qed.

(** Row i and column j belong to the i-th and the j-th vertex: the entry is 1 if there is an edge, and 0 otherwise;
    the matrix is symmetric, and its diagonal is zero if there are no loops. *)
Theorem C90_adjacency g : undirected g -> g <> [] ->
  exists vs A, in_order g vs /\ adjacency_matrix g = Ret A /\ shape A (length vs) (length vs) /\
    (forall i j, (i < length vs)%nat -> (j < length vs)%nat ->
      (edge g (nth i vs 0) (nth j vs 0) -> ent A i j = 1) /\ (~ edge g (nth i vs 0) (nth j vs 0) -> ent A i j = 0) /\ ent A i j = ent A j i) /\
    (loop_free g -> forall i, (i < length vs)%nat -> ent A i i = 0).
Proof.
  intros Hg Ne. exists (vertices g). destruct (adjacency_ok g Hg Ne) as (A & E & S & H). exists A. split; [apply in_order_vertices, Hg|]. split; [exact E|]. split; [exact S|].
  assert (Sym : forall u v, edgeb g u v = edgeb g v u).
  { intros u v. destruct Hg as (_ & _ & _ & Sy). apply eq_true_iff_eq. rewrite !edgeb_edge. unfold edge. rewrite Sy. tauto. }
  split.
  - intros i j Hi Hj. rewrite (H i j Hi Hj), (H j i Hj Hi), <- edgeb_edge. split; [intros ->; reflexivity|]. split; [|rewrite Sym; reflexivity].
    intros Q. destruct (edgeb g (nth i (vertices g) 0) (nth j (vertices g) 0)); [destruct Q; reflexivity|reflexivity].
  - intros L i Hi. rewrite (H i i Hi Hi). destruct (edgeb g (nth i (vertices g) 0) (nth i (vertices g) 0)) eqn:Q; [|reflexivity]. apply edgeb_edge in Q as (w & Q). rewrite L in Q. discriminate.
Qed.
Print Assumptions C90_adjacency.

(** The degrees on the diagonal, and nothing else. *)
Theorem C90_degree g : undirected g -> g <> [] ->
  exists vs D, in_order g vs /\ degree_matrix g = Ret D /\ shape D (length vs) (length vs) /\
    (forall i j, (i < length vs)%nat -> (j < length vs)%nat -> i <> j -> ent D i j = 0) /\
    (forall i, (i < length vs)%nat -> degree_of g (nth i vs 0) (ent D i i)).
Proof.
  intros Hg Ne. exists (vertices g). destruct (degree_ok g Hg Ne) as (D & E & S & H). exists D. split; [apply in_order_vertices, Hg|]. split; [exact E|]. split; [exact S|]. split.
  - intros i j Hi Hj N. rewrite (H i j Hi Hj). destruct (Nat.eqb_spec i j); [contradiction|reflexivity].
  - intros i Hi. rewrite (H i i Hi Hi), Nat.eqb_refl. set (u := nth i (vertices g) 0). assert (Vu : vertex g u) by (apply vs_In, nth_In, Hi).
    pose proof Vu as Vu'. apply vertex_dget in Vu' as (a & Ea). exists (dkeys a). split; [apply (proj2 (undirected_wfd g Hg) u a Ea)|]. split.
    + intros x. unfold edge, weight. rewrite Ea. apply dget_key.
    + unfold degree0. rewrite Ea. unfold dkeys. rewrite map_length. reflexivity.
Qed.
Print Assumptions C90_degree.

(** The Laplacian is the difference; it is symmetric, its rows add up to zero, and as a quadratic form it is the sum of
    (x_u - x_v)^2 over the edges uv (each edge appears twice in the sum on the right). *)
Theorem C90_laplacian g : undirected g -> g <> [] ->
  exists D A M, degree_matrix g = Ret D /\ adjacency_matrix g = Ret A /\ laplacian_matrix g = Ret M /\
    let n := length (vertices g) in
    shape M n n /\
    (forall i j, (i < n)%nat -> (j < n)%nat -> ent M i j = ent D i j - ent A i j /\ ent M i j = ent M j i) /\
    (forall i, (i < n)%nat -> zsum (map (ent M i) (seq 0 n)) = 0) /\
    (forall x : nat -> Z, 2 * zsum (map (fun i => zsum (map (fun j => ent M i j * x i * x j) (seq 0 n))) (seq 0 n)) =
       zsum (map (fun i => zsum (map (fun j => ent A i j * ((x i - x j) * (x i - x j))) (seq 0 n))) (seq 0 n))).
Proof.
  intros Hg Ne. destruct (degree_ok g Hg Ne) as (D & ED & SD & HD). destruct (adjacency_ok g Hg Ne) as (A & EA & SA & HA).
  destruct (C52_sub D A _ _ SD SA (vs_pos g Ne)) as (M & EM & SM & HM). exists D, A, M. split; [exact ED|]. split; [exact EA|]. unfold laplacian_matrix. rewrite ED. cbn [bind]. rewrite EA. cbn [bind].
  split; [exact EM|]. cbv zeta. set (n := length (vertices g)) in *. split; [exact SM|].
  assert (Sym : forall i j, (i < n)%nat -> (j < n)%nat -> ent A i j = ent A j i).
  { intros i j Hi Hj. rewrite (HA i j Hi Hj), (HA j i Hj Hi). destruct Hg as (_ & _ & _ & Sy).
    replace (edgeb g (nth j (vertices g) 0) (nth i (vertices g) 0)) with (edgeb g (nth i (vertices g) 0) (nth j (vertices g) 0)); [reflexivity|]. apply eq_true_iff_eq. rewrite !edgeb_edge. unfold edge. rewrite Sy. tauto. }
  assert (DA : forall i, (i < n)%nat -> ent D i i = zsum (map (ent A i) (seq 0 n))).
  { intros i Hi. rewrite (HD i i Hi Hi), Nat.eqb_refl. rewrite <- (degree_count g Hg) by (apply vs_In, nth_In, Hi). rewrite <- index_sum. apply zsum_ext. intros j Hj. apply in_seq in Hj. symmetry. apply HA; lia. }
  assert (Dsum : forall i (f : nat -> Z), (i < n)%nat -> zsum (map (fun j => ent D i j * f j) (seq 0 n)) = ent D i i * f i).
  { intros i f Hi. rewrite (zsum_pick _ i); [reflexivity|apply seq_NoDup|apply in_seq; lia|]. intros j Hj Nj. apply in_seq in Hj. rewrite (HD i j) by lia. destruct (Nat.eqb_spec i j); [lia|reflexivity]. }
  split; [|split].
  - intros i j Hi Hj. split; [apply HM; assumption|]. rewrite (HM i j Hi Hj), (HM j i Hj Hi), (Sym i j Hi Hj), (HD i j Hi Hj), (HD j i Hj Hi). rewrite (Nat.eqb_sym j i). destruct (Nat.eqb_spec i j) as [->|]; reflexivity.
  - intros i Hi. rewrite (zsum_ext (ent M i) (fun j => ent D i j * 1 + (-1) * ent A i j)) by (intros j Hj; apply in_seq in Hj; rewrite (HM i j) by lia; lia).
    rewrite zsum_plus, zsum_mul, (Dsum i (fun _ => 1) Hi), (DA i Hi). lia.
  - intros x.
    assert (Q : forall i, (i < n)%nat -> zsum (map (fun j => ent M i j * x i * x j) (seq 0 n)) = zsum (map (fun j => ent A i j * (x i * x i)) (seq 0 n)) - zsum (map (fun j => ent A i j * (x i * x j)) (seq 0 n))).
    { intros i Hi. rewrite (zsum_ext _ (fun j => ent D i j * (x i * x j) + (-1) * (ent A i j * (x i * x j)))) by (intros j Hj; apply in_seq in Hj; rewrite (HM i j) by lia; ring).
      rewrite zsum_plus, zsum_mul, (Dsum i (fun j => x i * x j) Hi), (DA i Hi).
      rewrite (zsum_ext (fun j => ent A i j * (x i * x i)) (fun j => (x i * x i) * ent A i j)) by (intros; ring). rewrite zsum_mul. ring. }
    set (S1 := zsum (map (fun i => zsum (map (fun j => ent A i j * (x i * x i)) (seq 0 n))) (seq 0 n))).
    set (S2 := zsum (map (fun i => zsum (map (fun j => ent A i j * (x i * x j)) (seq 0 n))) (seq 0 n))).
    assert (L : zsum (map (fun i => zsum (map (fun j => ent M i j * x i * x j) (seq 0 n))) (seq 0 n)) = S1 - S2).
    { rewrite (zsum_ext _ (fun i => zsum (map (fun j => ent A i j * (x i * x i)) (seq 0 n)) + (-1) * zsum (map (fun j => ent A i j * (x i * x j)) (seq 0 n)))) by (intros i Hi; apply in_seq in Hi; rewrite Q by lia; ring).
      rewrite zsum_plus, zsum_mul. fold S1 S2. ring. }
    rewrite L.
    assert (S1' : zsum (map (fun i => zsum (map (fun j => ent A i j * (x j * x j)) (seq 0 n))) (seq 0 n)) = S1).
    { rewrite zsum_swap. unfold S1. apply zsum_ext. intros j Hj. apply zsum_ext. intros i Hi. apply in_seq in Hi, Hj. rewrite (Sym i j) by lia. reflexivity. }
    transitivity (S1 + S1 + (-2) * S2); [ring|]. rewrite <- S1' at 2. unfold S1, S2. rewrite <- zsum_mul, <- !zsum_plus. apply zsum_ext. intros i _. rewrite <- zsum_mul, <- !zsum_plus. apply zsum_ext. intros j _. ring.
Qed.
Print Assumptions C90_laplacian.

(** The graph without vertices has no matrices. *)
Theorem C90_empty : adjacency_matrix [] = Raise IndexError /\ degree_matrix [] = Raise IndexError /\ laplacian_matrix [] = Raise IndexError.
Proof. repeat split. Qed.
Print Assumptions C90_empty.

(** ** Density *)

(** The edges of a graph and of its complement. *)
Lemma complement_edges g h : undirected g -> loop_free g -> undirected h -> (forall x, vertex h x <-> vertex g x) ->
  (forall x y, (vertex g x /\ vertex g y /\ x <> y /\ weight g x y = None -> weight h x y = Some 1) /\
               (~ (vertex g x /\ vertex g y /\ x <> y /\ weight g x y = None) -> weight h x y = None)) ->
  loop_free h /\ length h = length g /\ 2 * (num_edges g + num_edges h) = Z.of_nat (length g) * (Z.of_nat (length g) - 1).
Proof.
  intros Hg Lg Hh V W.
  assert (Lh : loop_free h) by (intros u; apply W; intros (_ & _ & N & _); congruence). split; [exact Lh|].
  assert (P : Permutation (dkeys h) (dkeys g)) by (apply NoDup_same_perm; [apply Hh|apply Hg|exact V]).
  assert (Len : length h = length g) by (rewrite <- (map_length fst h), <- (map_length fst g); apply Permutation_length, P). split; [exact Len|].
  assert (Pv : Permutation (vertices h) (vertices g)) by (unfold vertices; rewrite !zsort_perm; exact P).
  assert (Zp : forall (f : Z -> Z) l l', Permutation l l' -> zsum (map f l) = zsum (map f l')).
  { intros f l l' Q. induction Q; cbn [map]; rewrite ?zsum_cons; lia. }
  assert (Fr : forall (f : Z -> Z) (l : list Z), fold_right (fun u t => f u + t) 0 l = zsum (map f l)).
  { intros f l. induction l as [|x l IH]; [reflexivity|]. cbn [fold_right map]. rewrite zsum_cons, IH. reflexivity. }
  pose proof (handshake g Hg Lg) as H1. pose proof (handshake h Hh Lh) as H2. rewrite Fr in H1, H2. rewrite (Zp _ _ _ P) in H2.
  assert (D : forall u, vertex g u -> degree0 g u + degree0 h u = Z.of_nat (length g) - 1).
  { intros u Vu. rewrite <- (degree_count g Hg u Vu), <- (degree_count h Hh u (proj2 (V u) Vu)), (Zp _ _ _ Pv), <- zsum_plus.
    rewrite (zsum_ext _ (fun v => 1 + (-1) * (if u =? v then 1 else 0))).
    - rewrite zsum_plus, zsum_mul.
      assert (C1 : forall l : list Z, zsum (map (fun _ => 1) l) = Z.of_nat (length l)) by (induction l as [|y l IH]; [reflexivity|]; cbn [map length]; rewrite zsum_cons, IH; lia).
      assert (C2 : forall l : list Z, NoDup l -> zsum (map (fun v => if u =? v then 1 else 0) l) = if in_dec Z.eq_dec u l then 1 else 0).
      { induction 1 as [|y l Ny N IH]; [reflexivity|]. cbn [map]. rewrite zsum_cons, IH. destruct (in_dec Z.eq_dec u l) as [J|J], (in_dec Z.eq_dec u (y :: l)) as [K|K], (Z.eqb_spec u y) as [Q|Q]; subst; cbn [In] in *; try lia; try tauto. destruct K as [K|K]; [congruence|contradiction]. }
      rewrite C1, C2 by (apply vs_NoDup, Hg). assert (Lv : length (vertices g) = length g) by (unfold vertices; rewrite zsort_length; apply map_length). rewrite Lv. destruct (in_dec Z.eq_dec u (vertices g)) as [J|J]; [lia|]. exfalso. apply J, vs_In, Vu.
    - intros v Hv. apply vs_In in Hv. destruct (edgeb g u v) eqn:E1, (edgeb h u v) eqn:E2, (Z.eqb_spec u v) as [<-|N]; try reflexivity; exfalso.
      + apply edgeb_edge in E1 as (w & E1). rewrite Lg in E1. discriminate.
      + apply edgeb_edge in E1 as (w & E1), E2 as (w' & E2). rewrite (proj2 (W u v)) in E2; [discriminate|]. intros (_ & _ & _ & Q). congruence.
      + apply edgeb_edge in E1 as (w & E1). rewrite Lg in E1. discriminate.
      + apply edgeb_edge in E2 as (w & E2). rewrite Lh in E2. discriminate.
      + assert (E3 : weight h u v = Some 1).
        { apply W. split; [exact Vu|]. split; [exact Hv|]. split; [exact N|]. destruct (weight g u v) as [w|] eqn:Q; [|reflexivity]. exfalso.
          assert (edgeb g u v = true) by (apply edgeb_edge; exists w; exact Q). congruence. }
        assert (edgeb h u v = true) by (apply edgeb_edge; exists 1; exact E3). congruence. }
  assert (T : zsum (map (degree0 g) (dkeys g)) + zsum (map (degree0 h) (dkeys g)) = Z.of_nat (length g) * (Z.of_nat (length g) - 1)).
  { rewrite <- zsum_plus. rewrite (zsum_ext _ (fun _ => Z.of_nat (length g) - 1)) by (intros u Hu; apply D, Hu). unfold dkeys. rewrite map_map.
    generalize (Z.of_nat (length g) - 1). intros c. clear. induction g as [|p l IH]; [reflexivity|]. cbn [map length]. rewrite zsum_cons, IH. lia. }
  unfold dkeys in *. lia.
Qed.

(** The number of edges of a graph without loops is at most the number of pairs of vertices, with equality for the complete graphs. *)
Lemma edges_bound g : undirected g -> loop_free g ->
  let n := Z.of_nat (length g) in 2 * num_edges g <= n * (n - 1) /\ (2 * num_edges g = n * (n - 1) <-> complete g).
Proof.
  intros Hg Lg n. destruct (C55_complement g Hg) as (h & _ & Hh & V & W). destruct (complement_edges g h Hg Lg Hh V W) as (Lh & Len & E). fold n in E.
  assert (M1 : 0 <= num_edges h) by (unfold num_edges; lia). split; [lia|]. set (m := num_edges g) in *.
  assert (Em : 2 * m = n * (n - 1) <-> num_edges h = 0) by lia. rewrite Em. unfold num_edges.
  pose proof (proj1 (proj2 (C55_edge_set h Hh))) as Es.
  split.
  - intros K u v Vu Vv N. assert (edge_set h = []) as K' by (destruct (edge_set h); [reflexivity|cbn in K; lia]). rewrite K' in Es.
    destruct (weight g u v) as [w|] eqn:Q'; [exists w; exact Q'|]. exfalso. assert (Eh : edge h u v) by (exists 1; apply W; auto).
    assert (Eh' : edge h v u) by (destruct Hh as (_ & _ & _ & Sy); destruct Eh as (w & Eh); exists w; rewrite <- Sy; exact Eh).
    destruct (Z_le_gt_dec u v) as [Le|Gt]; [apply (Es u v); split; assumption|apply (Es v u); split; [lia|assumption]].
  - intros C. destruct (edge_set h) as [|(u, v) l]; [reflexivity|]. exfalso. destruct (proj1 (Es u v) (or_introl eq_refl)) as (_ & w & Eh).
    rewrite (proj2 (W u v)) in Eh; [discriminate|]. intros (Vu & Vv & N & Q'). destruct (C u v Vu Vv N) as (w' & K). congruence.
Qed.

(** The float that is returned: the quotient of two integers, rounded once. *)
Lemma density_value g : undirected g -> loop_free g -> (2 <= length g)%nat ->
  let n := Z.of_nat (length g) in n * (n - 1) <= 2 ^ 53 ->
  exists t, n * (n - 1) = 2 * t /\ 0 < t /\ density g = Ret (fl (inject_Z (num_edges g) / inject_Z t)).
Proof.
  intros Hg Lg L2 n Hb. destruct (edges_bound g Hg Lg) as (B & _). fold n in B. assert (Hn : 2 <= n * (n - 1)) by nia.
  assert (Ev : exists t, n * (n - 1) = 2 * t). { destruct (Z.Even_or_Odd n) as [(k & K)|(k & K)]; [exists (k * (n - 1))|exists (n * k)]; nia. }
  destruct Ev as (t & Et). exists t. split; [exact Et|]. assert (Tp : 0 < t) by lia. split; [exact Tp|]. pose proof (inj_pos t Tp) as Qt.
  assert (M0 : 0 <= num_edges g) by (unfold num_edges; lia). unfold density. fold n.
  destruct (flt_int (n * (n - 1)) ltac:(lia)) as (p & -> & Ep). destruct (flt_int (num_edges g) ltac:(lia)) as (m & -> & Em). cbn [bind].
  assert (T : (fl (p / 2) == inject_Z t)%Q).
  { rewrite (fl_eq _ (inject_Z t)); [apply fl_int; lia|]. rewrite Ep, Et, inject_Z_mult. change (inject_Z 2) with 2%Q. field. }
  destruct (Qeq_bool (fl (p / 2)) 0) eqn:Q; [apply Qeq_bool_eq in Q; rewrite T in Q; rewrite Q in Qt; discriminate Qt|].
  f_equal. apply fl_eq. rewrite T, Em. reflexivity.
Qed.

(** The number of edges over the number of pairs of vertices, up to a relative error of 2^-53; between 0 and 1, 0 for the
    graphs without edges only, and 1 for the complete graphs only. *)
Theorem C90_density g : undirected g -> loop_free g -> (2 <= length g)%nat -> Z.of_nat (length g) * (Z.of_nat (length g) - 1) <= 2 ^ 53 ->
  let exact := ((2 * Z.of_nat (length (edge_set g))) # Z.to_pos (Z.of_nat (length g) * (Z.of_nat (length g) - 1)))%Q in
  exists q, density g = Ret q /\ (Qabs (q - exact) <= (1 # 2 ^ 53) * exact)%Q /\
    (0 <= q <= 1)%Q /\ ((q == 0)%Q <-> edge_set g = []) /\ ((q == 1)%Q <-> complete g).
Proof.
  intros Hg Lg L2 Hb exact. destruct (density_value g Hg Lg L2 Hb) as (t & Et & Tp & D). destruct (edges_bound g Hg Lg) as (B & C). cbv zeta in B, C, Et. rewrite Et in B, C.
  exists (fl (inject_Z (num_edges g) / inject_Z t)). split; [exact D|]. pose proof (inj_pos t Tp) as Qt.
  assert (Ex : (exact == inject_Z (num_edges g) / inject_Z t)%Q).
  { unfold exact. rewrite Et, Qmake_Qdiv, Z2Pos.id by lia. fold (num_edges g). rewrite !inject_Z_mult. unfold num_edges. change (inject_Z 2) with 2%Q. field. lra. }
  assert (M0 : 0 <= num_edges g) by (unfold num_edges; lia). set (m := num_edges g) in *. assert (Mt : m <= t) by lia.
  set (r := (inject_Z m / inject_Z t)%Q) in *. assert (Rt : (r * inject_Z t == inject_Z m)%Q) by (unfold r; field; lra).
  assert (Small : (r == 0)%Q \/ (p2 (-53) <= r)%Q).
  { destruct (Z.eq_dec m 0) as [E0|N0]; [left; unfold r; rewrite E0; unfold Qdiv; ring|right]. apply Qmult_le_r with (z := inject_Z t); [exact Qt|]. rewrite Rt.
    assert (T1 : (inject_Z t <= inject_Z (2 ^ 53))%Q) by (rewrite <- Zle_Qle; lia). rewrite p2_Z in T1 by lia. pose proof (p2_opp 53) as O. change (- (53))%Z with (-53) in O.
    assert (T2 : (inject_Z t * p2 (-53) <= p2 53 * p2 (-53))%Q) by (apply Qmult_le_compat_r; [exact T1|pose proof (p2_pos (-53)); lra]).
    assert (T3 : (inject_Z 1 <= inject_Z m)%Q) by (rewrite <- Zle_Qle; lia). change (inject_Z 1) with 1%Q in T3. lra. }
  assert (R0 : (0 <= r)%Q) by (destruct Small as [S0|S0]; [rewrite S0; apply Qle_refl|pose proof (p2_pos (-53)); lra]).
  destruct (fl_ok r) as (F1 & F2).
  { destruct Small as [S0|S0]; [left; exact S0|right]. eapply Qle_trans; [|exact S0]. apply p2_le. lia. }
  unfold eps in F1, F2. assert (P53 : (p2 (-53) == 1 # 2 ^ 53)%Q) by reflexivity. rewrite P53 in F1, F2. 
  assert (F0 : (0 <= fl r)%Q) by (eapply Qle_trans; [|exact F1]; apply Qmult_le_0_compat; [discriminate|exact R0]).
  assert (F3 : m < t -> (fl r < 1)%Q) by (intros L; unfold r; apply fl_below; lia).
  assert (F4 : m = t -> (fl r == 1)%Q).
  { intros L. rewrite (fl_eq r (inject_Z 1)); [apply fl_int; lia|]. unfold r. rewrite L. change (inject_Z 1) with 1%Q. field. lra. }
  split; [|split; [|split]].
  - rewrite Ex. apply Qabs_Qle_condition. split; lra.
  - split; [exact F0|]. destruct (Z.eq_dec m t) as [L|L]; [rewrite (F4 L); apply Qle_refl|apply Qlt_le_weak, F3; lia].
  - split.
    + intros Q. destruct Small as [S0|S0].
      * rewrite S0, Qmult_0_l in Rt. unfold Qeq, inject_Z in Rt. cbn in Rt. assert (K : Z.of_nat (length (edge_set g)) = 0) by (change (m = 0); lia). destruct (edge_set g); [reflexivity|cbn in K; lia].
      * exfalso. rewrite Q in F1. rewrite P53 in S0. change (1 # 2 ^ 53)%Q with (1 # 9007199254740992)%Q in F1, S0. lra.
    + intros Q. assert (K : m = 0) by (unfold m, num_edges; rewrite Q; reflexivity). rewrite (fl_eq r 0); [reflexivity|]. unfold r. rewrite K. unfold Qdiv. ring.
  - rewrite <- C. split.
    + intros Q. destruct (Z.eq_dec m t) as [L|L]; [lia|]. specialize (F3 ltac:(lia)). rewrite Q in F3. discriminate F3.
    + intros Q. apply F4. lia.
Qed.
Print Assumptions C90_density.

(** The densities of a graph and of its complement add up to 1, up to 2^-53. *)
Theorem C90_density_complement g : undirected g -> loop_free g -> (2 <= length g)%nat -> Z.of_nat (length g) * (Z.of_nat (length g) - 1) <= 2 ^ 53 ->
  exists h q q', complement g = Ret h /\ density g = Ret q /\ density h = Ret q' /\ (Qabs (q + q' - 1) <= 1 # 2 ^ 53)%Q.
Proof.
  intros Hg Lg L2 Hb. destruct (C55_complement g Hg) as (h & Ec & Hh & V & W). destruct (complement_edges g h Hg Lg Hh V W) as (Lh & Len & E).
  destruct (C90_density g Hg Lg L2 Hb) as (q & Eq & Hq & _). destruct (C90_density h Hh Lh ltac:(lia) ltac:(rewrite Len; exact Hb)) as (q' & Eq' & Hq' & _). exists h, q, q'. split; [exact Ec|]. split; [exact Eq|]. split; [exact Eq'|].
  rewrite Len in Hq'. set (N := Z.of_nat (length g) * (Z.of_nat (length g) - 1)) in *. assert (Np : 0 < N) by (unfold N; nia). pose proof (inj_pos N Np) as QN.
  assert (P : (0 < 1 # 2 ^ 53)%Q) by reflexivity. set (e := (1 # 2 ^ 53)%Q) in *. clearbody e.
  apply Qabs_Qle_condition in Hq as (A1 & A2), Hq' as (B1 & B2). rewrite !Qmake_Qdiv, Z2Pos.id in A1, A2, B1, B2 by lia.
  set (a := (inject_Z (2 * Z.of_nat (length (edge_set g))) / inject_Z N)%Q) in *. set (b := (inject_Z (2 * Z.of_nat (length (edge_set h))) / inject_Z N)%Q) in *.
  assert (S1 : (a + b == 1)%Q).
  { assert (EN : (inject_Z N == inject_Z (2 * Z.of_nat (length (edge_set g))) + inject_Z (2 * Z.of_nat (length (edge_set h))))%Q) by (rewrite <- inject_Z_plus; unfold num_edges in E; replace N with (2 * Z.of_nat (length (edge_set g)) + 2 * Z.of_nat (length (edge_set h))) by lia; reflexivity).
    unfold a, b. apply (Qmult_inj_r _ _ (inject_Z N)); [lra|]. rewrite Qmult_1_l. set (x := inject_Z (2 * Z.of_nat (length (edge_set g)))) in *. set (y := inject_Z (2 * Z.of_nat (length (edge_set h)))) in *. clearbody x y.
    transitivity (x + y)%Q; [field; lra|symmetry; exact EN]. }
  clearbody a b. apply Qabs_Qle_condition. assert (S2 : (e * a + e * b == e)%Q) by (rewrite <- Qmult_plus_distr_r, S1; ring). split; lra.
Qed.
Print Assumptions C90_density_complement.

(** With fewer than two vertices the density is not defined. *)
Theorem C90_density_error g : undirected g -> (length g <= 1)%nat -> density g = Raise ZeroDivisionError.
Proof.
  intros Hg H. destruct (C55_edge_set g Hg) as (Nd & Es & _ & En). assert (M : num_edges g <= 1).
  { rewrite En. destruct (edge_set g) as [|(a, b) [|(a', b') l]]; cbn [length]; [lia|lia|exfalso].
    assert (V : forall x y, vertex g x -> vertex g y -> x = y).
    { intros x y. unfold vertex. destruct g as [|p [|p' g']]; cbn; [tauto|intuition congruence|cbn in H; lia]. }
    assert (K : forall x y, In (x, y) ((a, b) :: (a', b') :: l) -> vertex g x /\ vertex g y).
    { intros x y I. apply Es in I as (_ & Ed). split; [eapply edge_vertex; exact Ed|]. destruct Hg as (_ & _ & W & _). eapply W. exact Ed. }
    destruct (K a b (or_introl eq_refl)) as (K1 & K2), (K a' b' (or_intror (or_introl eq_refl))) as (K3 & K4).
    inversion Nd as [|? ? X _]. apply X. left. f_equal; apply V; assumption. }
  unfold density. assert (N0 : Z.of_nat (length g) * (Z.of_nat (length g) - 1) = 0) by (destruct (length g) as [|[|k]]; [reflexivity|reflexivity|lia]). rewrite N0.
  destruct (flt_int (num_edges g)) as (m & -> & _); [rewrite En in *; lia|]. reflexivity.
Qed.
Print Assumptions C90_density_error.

(** ** The example of the documentation *)
Definition doc_graph : graph := fold_left apply_op [OpAddEdges [(1, 2, 1); (1, 5, 1); (2, 3, 1); (2, 5, 1); (3, 4, 1); (4, 5, 1); (4, 6, 1)]] empty_graph.
Example C90_doc_hyps : undirected doc_graph /\ loop_free doc_graph /\ (2 <= length doc_graph)%nat.
Proof.
  split; [apply history_undirected|]. split; [|vm_compute; lia]. intros u. unfold weight. vm_compute dget. destruct u as [|p|p]; [reflexivity| |reflexivity].
  do 4 (destruct p as [p|p|]; try reflexivity).
Qed.
Example C90_doc_laplacian : laplacian_matrix doc_graph =
  Ret [[2; -1; 0; 0; -1; 0]; [-1; 3; -1; 0; -1; 0]; [0; -1; 2; -1; 0; 0]; [0; 0; -1; 3; -1; -1]; [-1; -1; 0; -1; 3; 0]; [0; 0; 0; -1; 0; 1]].
Proof. vm_compute. reflexivity. Qed.
Example C90_doc_density_hyps : Z.of_nat (length doc_graph) * (Z.of_nat (length doc_graph) - 1) <= 2 ^ 53.
Proof. vm_compute. discriminate. Qed.
(** 7 / 15: the float that Python prints as 0.4666666666666667. *)
Example C90_doc_density : match density doc_graph with Ret q => (q == 4203359652212463 # 2 ^ 53)%Q /\ (Qabs (q - (7 # 15)) < 1 # 10 ^ 16)%Q | _ => False end.
Proof. vm_compute. split; reflexivity. Qed.
(** Only a graph this large (one of at least 94906267 vertices) is outside the bound. *)
Example C90_density_range n : 0 <= n <= 94906266 -> n * (n - 1) <= 2 ^ 53.
Proof. intros H. change (2 ^ 53) with 9007199254740992. nia. Qed.
