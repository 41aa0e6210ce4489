From Coq Require Import ZArith List Bool Lia Znumtheory.
From Verif Require Import Base Core_Model Lists Zn_Model Core_Proofs.
Import ListNotations.
Open Scope Z_scope.

Lemma linear_congruence_correct a b n : 2 <= n ->
  linear_congruence a b n = Ret (filter (fun x => (a * x - b) mod n =? 0) (zrange 0 n)).
Proof.
  intros Hn. unfold linear_congruence. destruct (Z.ltb_spec n 2); [lia|].
  destruct (ext_gcd_correct a n) as (u & v & -> & E). cbn [bind].
  set (d := Z.gcd a n) in *.
  assert (Hd : 0 < d).
  { pose proof (Z.gcd_nonneg a n). assert (d <> 0) by (unfold d; rewrite Z.gcd_eq_0; lia). unfold d in *; lia. }
  destruct (Z.gcd_divide_l a n) as [a' Ha]. destruct (Z.gcd_divide_r a n) as [n' Hn'].
  fold d in Ha, Hn'.
  assert (Hn1 : 0 < n') by nia.
  assert (Ebez : a' * u + n' * v = 1) by nia.
  destruct (Z.eqb_spec (b mod d) 0) as [Eb|Eb]; cbn [negb].
  - f_equal. apply Z.mod_divide in Eb; [|lia]. destruct Eb as [b' Hb].
    assert (EX : b * u / d = b' * u).
    { rewrite Hb. replace (b' * d * u) with (b' * u * d) by ring. apply Z.div_mul. lia. }
    rewrite EX.
    assert (EK : forall k, k * n / d = k * n').
    { intros k. replace (k * n) with (k * n' * d) by (rewrite Hn' at 1; ring). apply Z.div_mul. lia. }
    apply zsort_filter_range.
    + apply NoDup_nth with (d := 0). intros i j Hi Hj Eij.
      rewrite map_length, zrange_length in Hi, Hj.
      rewrite !(nth_indep _ 0 ((fun k => (b' * u + k * n / d) mod n) 0)) in Eij by (rewrite map_length, zrange_length; lia).
      rewrite !(map_nth (fun k => (b' * u + k * n / d) mod n)), !zrange_nth in Eij by lia.
      rewrite !EK in Eij.
      assert (D : (n | (b' * u + (0 + Z.of_nat i) * n') - (b' * u + (0 + Z.of_nat j) * n'))).
      { apply Z.mod_divide; [lia|]. rewrite Zminus_mod, Eij, Z.sub_diag. apply Z.mod_0_l. lia. }
      destruct D as [q Hq].
      assert ((Z.of_nat i - Z.of_nat j) * n' = (q * d) * n') by nia.
      assert (Z.of_nat i - Z.of_nat j = q * d) by nia.
      assert (q = 0) by nia. lia.
    + intros x. rewrite in_map_iff, Z.eqb_eq. split.
      * intros (k & <- & Hk%zrange_In). split; [apply Z.mod_pos_bound; lia|].
        rewrite EK, Zminus_mod, Z.mul_mod_idemp_r, <- Zminus_mod by lia.
        apply Z.mod_divide; [lia|].
        exists (a' * k - v * b').
        assert (a * (b' * u) = b - b' * v * n) by (rewrite Hb; nia).
        assert (a * (k * n') = a' * k * n) by nia.
        lia.
      * intros [Hx Ex]. apply Z.mod_divide in Ex; [|lia]. destruct Ex as [q Hq].
        (* x = b' u mod n' *)
        assert (Hdiv : (n' | x - b' * u)).
        { assert (a' * x - b' = q * n') by nia.
          exists (q * u + v * x).
          transitivity (u * (a' * x - b') + n' * v * x).
          - rewrite <- (Z.mul_1_r x) at 1. rewrite <- Ebez. ring.
          - rewrite H0. ring. }
        destruct Hdiv as [k Hk].
        exists (k mod d). split.
        -- rewrite EK. symmetry. apply Z.mod_unique with (- (k / d)); [lia|].
           pose proof (Z.div_mod k d ltac:(lia)) as D.
           replace (k mod d) with (k - d * (k / d)) by lia. nia.
        -- apply zrange_In. apply Z.mod_pos_bound. lia.
  - f_equal. symmetry.
    assert (F : forall x, (a * x - b) mod n <> 0).
    { intros x Ex. apply Z.mod_divide in Ex; [|lia]. destruct Ex as [q Hq].
      apply Eb. apply Z.mod_divide; [lia|]. exists (a' * x - q * n'). nia. }
    generalize (zrange 0 n). intros l. induction l as [|x l IH]; [reflexivity|].
    simpl. destruct (Z.eqb_spec ((a * x - b) mod n) 0); [exfalso; eapply F; eauto|exact IH].
Qed.
