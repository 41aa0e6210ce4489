(** * Latin squares by exact cover: the solutions *)
From Coq Require Import ZArith List Bool Lia Sorting.Sorted Sorting.Permutation.
From Verif Require Import Base Lists2 Count Gen Cover_Model Cover_Spec Cover_Proofs Cover_Proofs2 Cover_Proofs3 Tiling_Proofs Tiling_Proofs3 Tiling_Proofs4
  Latin_Spec Latin_Model Latin_Proofs Latin_Proofs2.
Import ListNotations.
Open Scope Z_scope.

Lemma lor_pow_add x c : 0 <= c -> Z.testbit x c = false -> Z.lor x (2 ^ c) = x + 2 ^ c.
Proof.
  intros Hc T. rewrite <- Z.lxor_lor; [symmetry; apply Z.add_nocarry_lxor|]; apply Z.bits_inj'; intros i Hi;
    rewrite Z.land_spec, Z.pow2_bits_eqb, Z.testbit_0_l by lia; destruct (Z.eqb_spec c i) as [<-|E]; try (rewrite T; reflexivity); apply andb_false_r.
Qed.

Lemma rev_sorted {A} (R : A -> A -> Prop) l : StronglySorted R l -> StronglySorted (fun x y => R y x) (rev l).
Proof.
  induction 1 as [|x l S IH F]; [constructor|]. cbn [rev]. rewrite Forall_forall in F.
  assert (G : forall y, In y (rev l) -> R x y) by (intros y Hy; apply F, in_rev, Hy).
  induction (rev l) as [|y m IHm]; [repeat constructor|]. cbn [app]. inversion_clear IH as [|? ? I1 I2]. constructor.
  - apply IHm; [exact I1|]. intros z Hz. apply G. right. exact Hz.
  - rewrite Forall_forall in *. intros z Hz. apply in_app_or in Hz as [Hz|[<-|[]]]; [apply I2, Hz|apply G; left; reflexivity].
Qed.

Section Latin.
  Context (n : Z).
  Hypothesis Hn : 1 <= n.

  Lemma latin_int_code p i j : 0 <= p < n -> 0 <= i < n -> 0 <= j < n -> latin_int n p i j = cell_code n p i j.
  Proof using Hn.
    intros Hp Hi Hj. rewrite (latin_int_eq n Hn) by assumption. unfold cell_code, bit2.
    pose proof (code_bound n j i Hj Hi) as B1. pose proof (code_bound n i p Hi Hp) as B2. pose proof (code_bound n j p Hj Hp) as B3.
    rewrite !Z.shiftl_1_l. replace (n ^ 2) with (n * n) by ring.
    rewrite Z.shiftl_lor, !Z.shiftl_mul_pow2 by lia. rewrite <- !Z.pow_add_r by lia.
    replace (n * n - 1 - (j * n + p) + n * n) with (2 * (n * n) - 1 - (j * n + p)) by ring.
    replace (2 * (n * n) - 1 - (i * n + p) + n * n) with (3 * (n * n) - 1 - (i * n + p)) by ring.
    rewrite lor_pow_add; [rewrite lor_pow_add|..]; [ring|lia| |lia|].
    - rewrite Z.pow2_bits_eqb by lia. lia.
    - rewrite Z.lor_spec, !Z.pow2_bits_eqb by lia. lia.
  Qed.

  Section Square.
    Context (s : list (list Z)).
    Hypothesis Hs : latin_square n s.

    Definition item_at (c : Z) : Z * Z * Z := (at_s s (c / n) (c mod n), c mod n, c / n).

    Lemma cell_of c : 0 <= c < n * n -> 0 <= c / n < n /\ 0 <= c mod n < n.
    Proof using Hn.
      intros Hc. split; [split; [apply Z.div_pos; lia|apply Z.div_lt_upper_bound; lia]|apply Z.mod_pos_bound; lia].
    Qed.

    Lemma items_at : map (it n) (lcoverof n s) = map item_at (rev (zrange 0 (n * n))).
    Proof using Hn Hs.
      assert (S1 : StronglySorted (fun x y => cbit n x < cbit n y) (map (it n) (lcoverof n s))).
      { generalize (lcoverof_sorted n Hn s). apply StronglySorted_map. intros x y _ _. unfold clt. auto. }
      assert (S2 : StronglySorted (fun x y => cbit n x < cbit n y) (map item_at (rev (zrange 0 (n * n))))).
      { generalize (rev_sorted _ _ (zrange_sorted 0 (n * n))). apply StronglySorted_map. intros x y _ _ H. unfold cbit, item_at.
        pose proof (Z.div_mod x n ltac:(lia)). pose proof (Z.div_mod y n ltac:(lia)). lia. }
      assert (ND : forall l, StronglySorted (fun x y => cbit n x < cbit n y) l -> NoDup l).
      { induction 1 as [|x l S IH F]; [constructor|]. constructor; [|exact IH]. intros Hx. rewrite Forall_forall in F. specialize (F x Hx). lia. }
      apply (sorted_ext (fun x y => cbit n x < cbit n y)); [intros x; lia|intros x y z; lia|exact S1|exact S2|].
      apply NoDup_same_perm; [apply ND, S1|apply ND, S2|]. intros x. rewrite !in_map_iff. split.
      - intros (k & <- & Hk). apply lcoverof_In in Hk as (Lk & Uk); [|exact Hn]. apply lused_eq in Uk; [|exact Hn].
        destruct (it_bounds n Hn k Lk) as (_ & Ck & Rk).
        exists (ro n k * n + co n k). split.
        + unfold item_at. rewrite Z.div_add_l, (Z.div_small (co n k)), Z.add_0_r by lia. rewrite Z.add_comm, Z.mod_add, Z.mod_small by lia.
          rewrite <- Uk. symmetry. apply it_eta. exact Hn.
        + apply in_rev. rewrite rev_involutive. apply zrange_In, code_bound; assumption.
      - intros (c & <- & Hc). apply in_rev, zrange_In in Hc. destruct (cell_of c Hc) as (Hj & Hi).
        destruct (cover_at n Hn s Hs _ _ Hj Hi) as (k & K1 & _ & K3). exists k. split; [exact K3|exact K1].
    Qed.

    Lemma lcoverof_codes : map (fun k => nth k (latin_square_ints n) 0) (lcoverof n s) = square_codes n s.
    Proof using Hn Hs.
      rewrite (map_ext_in _ (fun k => vec3 n (it n k))).
      2:{ intros k Hk. apply lcoverof_In in Hk as (Lk & _); [|exact Hn]. apply (lval n Hn k Lk). }
      rewrite <- map_map, items_at, map_map. unfold square_codes. replace (n ^ 2) with (n * n) by ring. apply map_ext_in.
      intros c Hc. apply in_rev, zrange_In in Hc. destruct (cell_of c Hc) as (Hj & Hi). unfold item_at, vec3. fold (at_s s (c / n) (c mod n)).
      apply latin_int_code; [apply (at_range n Hn s Hs); assumption|exact Hi|exact Hj].
    Qed.
  End Square.
End Latin.

Lemma latin_zero s : latin_square 0 s <-> s = [].
Proof.
  split; [intros (L & _); destruct s; [reflexivity|cbn [length] in L; lia]|intros ->]. split; [reflexivity|]. split; [constructor|]. intros j Hj. lia.
Qed.
