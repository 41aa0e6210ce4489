(** * C100: tours of points in the plane *)
From Coq Require Import ZArith List Bool Lia Permutation.
From Verif Require Import Base Py TSP_Model TSP_Spec TSP_Props Euc_Model Euc_Spec Euc_Proofs Euc_Proofs2.
Import ListNotations.
Open Scope Z_scope.

Section Any.
  Context {F : Type} (zero inf : F) (add sub : F -> F -> F) (square root : F -> F) (ltb : F -> F -> bool) (points : list (F * F)).
  Local Notation n := (Z.of_nat (length points)).
  Local Notation len := (computed_length zero add sub square root points).

  (** The matrix has a row and a column for each point, infinity on the diagonal, and elsewhere the distance, computed once
      for both orders: it is symmetric whatever the rounding. *)
  Theorem C100_matrix : exists M, euclidean_distance_matrix zero inf add sub square root points = Ret M /\
    length M = length points /\ (forall row, In row M -> length row = length points) /\
    forall i j, 0 <= i < n -> 0 <= j < n ->
      nth (Z.to_nat j) (nth (Z.to_nat i) M []) zero = (if i =? j then inf else between zero add sub square root points i j) /\
      between zero add sub square root points i j = between zero add sub square root points j i.
  Proof using.
    destruct (euclid_ok zero inf add sub square root points) as (M & E & (Q1 & Q2) & W). exists M. split; [exact E|]. split; [exact Q1|]. split.
    - intros row Hr. apply (In_nth _ _ []) in Hr as (k & Hk & <-). apply Q2. lia.
    - intros i j Hi Hj. split; [|unfold between; rewrite Z.max_comm, Z.min_comm; reflexivity]. rewrite W by lia. unfold wanted, between, point. rewrite Z2Nat.inj_max, Z2Nat.inj_min.
      destruct (Z.eqb_spec i j), (Nat.eqb_spec (Z.to_nat i) (Z.to_nat j)); try lia; reflexivity.
  Qed.

  (** If the square of a - b is that of b - a, as for floats, the order of the points does not matter. *)
  Theorem C100_order : (forall a b, square (sub a b) = square (sub b a)) ->
    forall i j, between zero add sub square root points i j = distance add sub square root (point zero points i) (point zero points j).
  Proof using.
    intros H i j. unfold between, distance. destruct (Z.le_ge_cases i j) as [L|L]; [rewrite Z.max_r, Z.min_l by exact L|rewrite Z.max_l, Z.min_r by exact L; reflexivity].
    rewrite (H (fst _)), (H (snd _)). reflexivity.
  Qed.

  (** depth_first returns a tour from 0 with its computed length, and no tour from 0 has a smaller one; only if none is below
      infinity, infinity and no tour. *)
  Theorem C100_depth_first : 2 <= n -> ordered ltb -> exists c p, depth_first_points zero inf add sub square root ltb points = Ret (c, p) /\
    (forall q, tour n q -> hd 1 q = 0 -> ltb (len q) c = false) /\
    ((tour n p /\ hd 1 p = 0 /\ c = len p /\ ltb c inf = true) \/ (c = inf /\ p = [])).
  Proof using.
    intros Hn Ho. destruct (euclid_ok zero inf add sub square root points) as (M & E & Q & W). unfold depth_first_points. rewrite E. cbn [bind].
    destruct (fsearch zero inf add sub square root ltb Ho points M Q W Hn) as ((c & p) & E' & G & I). exists c, p. split; [exact E'|]. split; [exact I|]. destruct G as [G|G]; [right; injection G; auto|left; exact G].
  Qed.

  (** One point has a tour, but its closing edge is infinite and no tour is returned. *)
  Theorem C100_single_point_refuted p0 : points = [p0] -> ltb inf inf = false -> depth_first_points zero inf add sub square root ltb points = Ret (inf, []) /\ tour n [0].
  Proof using. intros -> H. split; [|unfold tour; reflexivity]. destruct p0 as [x y]. vm_compute. rewrite H. reflexivity. Qed.

  (** No points: IndexError. *)
  Theorem C100_no_points : points = [] -> depth_first_points zero inf add sub square root ltb points = Raise IndexError.
  Proof using. intros ->. reflexivity. Qed.
End Any.

(** Points with whole coordinates whose distances are whole numbers: the exact methods find a shortest tour, and two_opt one that
    no reversal of a segment shortens. *)
Theorem C100_whole_numbers (pts : list (Z * Z)) (d : Z -> Z -> Z) :
  let n := Z.of_nat (length pts) in
  2 <= n ->
  (forall i j, 0 <= i < n -> 0 <= j < n -> 0 <= d i j /\
    (fst (nth (Z.to_nat i) pts (0, 0)) - fst (nth (Z.to_nat j) pts (0, 0))) ^ 2 + (snd (nth (Z.to_nat i) pts (0, 0)) - snd (nth (Z.to_nat j) pts (0, 0))) ^ 2 = d i j ^ 2) ->
  (exists p, depth_first_points (Some 0) None wadd wsub whole_square whole_root wltb (map whole pts) = Ret (Some (tour_cost d p), p) /\
    tour n p /\ forall q, tour n q -> tour_cost d p <= tour_cost d q) /\
  exists M, euclidean_distance_matrix (Some 0) None wadd wsub whole_square whole_root (map whole pts) = Ret M /\
    (exists p, branch_and_bound M n = Ret (Some (tour_cost d p), p) /\ tour n p /\ forall q, tour n q -> tour_cost d p <= tour_cost d q) /\
    exists fuel0, forall fuel, (fuel0 <= fuel)%nat -> exists p, two_opt M fuel n = Ret (Some (tour_cost d p), p) /\ tour n p /\
      forall A B C, p = A ++ B ++ C -> tour_cost d p <= tour_cost d (A ++ rev B ++ C).
Proof.
  intros n Hn H. destruct (euclid_ok (Some 0) None wadd wsub whole_square whole_root (map whole pts)) as (M & E & _ & _).
  assert (HD : distances n d M) by exact (whole_distances pts d M H E).
  split.
  - destruct (C46_depth_first n d M Hn HD) as (p & Ep & T & _ & Hp). exists p. split; [|split; assumption]. unfold depth_first_points. rewrite E. cbn [bind]. rewrite map_length. rewrite <- Ep. unfold depth_first, n. rewrite Nat2Z.id. apply fbacktrack_whole.
  - exists M. split; [exact E|]. split.
    + destruct (C46_branch_and_bound n d M Hn HD) as (p & Ep & T & _ & Hp). exists p. auto.
    + destruct (C46_two_opt n d M Hn HD) as (f0 & Hf).
      { intros i j Hi Hj. destruct (H i j Hi Hj) as (A1 & A2), (H j i Hj Hi) as (B1 & B2). nia. }
      exists f0. intros fuel Hl. destruct (Hf fuel Hl) as (p & Ep & T & _ & Hp). exists p. auto.
Qed.

Print Assumptions C100_matrix.
Print Assumptions C100_order.
Print Assumptions C100_depth_first.
Print Assumptions C100_single_point_refuted.
Print Assumptions C100_no_points.
Print Assumptions C100_whole_numbers.

(** A rectangle of sides 3 and 4, the corners given crosswise. *)
Definition rectangle : list (Z * Z) := [(0, 0); (3, 4); (3, 0); (0, 4)].
Definition rectangle_distance (i j : Z) : Z := nth (Z.to_nat (4 * i + j)) [0; 5; 3; 4; 5; 0; 4; 3; 3; 4; 0; 5; 4; 3; 5; 0] 0.

Example rectangle_hypotheses : let n := Z.of_nat (length rectangle) in 2 <= n /\ forall i j, 0 <= i < n -> 0 <= j < n -> 0 <= rectangle_distance i j /\
  (fst (nth (Z.to_nat i) rectangle (0, 0)) - fst (nth (Z.to_nat j) rectangle (0, 0))) ^ 2 + (snd (nth (Z.to_nat i) rectangle (0, 0)) - snd (nth (Z.to_nat j) rectangle (0, 0))) ^ 2 = rectangle_distance i j ^ 2.
Proof.
  cbn [length rectangle]. split; [lia|]. assert (H : forall i, 0 <= i < 4 -> i = 0 \/ i = 1 \/ i = 2 \/ i = 3) by (intros; lia).
  intros i j Hi Hj. destruct (H i Hi) as [-> | [-> | [-> | ->]]]; destruct (H j Hj) as [-> | [-> | [-> | ->]]]; vm_compute; split; (reflexivity || discriminate).
Qed.
Example rectangle_matrix : euclidean_distance_matrix (Some 0) None wadd wsub whole_square whole_root (map whole rectangle) =
  Ret [[None; Some 5; Some 3; Some 4]; [Some 5; None; Some 4; Some 3]; [Some 3; Some 4; None; Some 5]; [Some 4; Some 3; Some 5; None]].
Proof. vm_compute. reflexivity. Qed.
Example rectangle_tour : depth_first_points (Some 0) None wadd wsub whole_square whole_root wltb (map whole rectangle) = Ret (Some 14, [0; 2; 1; 3]).
Proof. vm_compute. reflexivity. Qed.
Example wltb_ordered : ordered wltb.
Proof.
  unfold ordered. split; [|split].
  - intros [a|]; cbn; [apply Z.ltb_irrefl|reflexivity].
  - intros [a|] [b|] [c|]; cbn; rewrite ?Z.ltb_ge; try reflexivity; try discriminate; lia.
  - intros [a|] [b|]; cbn; rewrite ?Z.ltb_ge, ?Z.ltb_lt; try reflexivity; try discriminate; lia.
Qed.
Example order_hypothesis : forall a b, whole_square (wsub a b) = whole_square (wsub b a).
Proof. intros [a|] [b|]; cbn [wsub whole_square]; try reflexivity. f_equal. ring. Qed.
