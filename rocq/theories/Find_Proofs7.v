(** * cfrac *)
From Coq Require Import ZArith List Bool Lia Znumtheory Zpow_facts.
From Verif Require Import Base Py Sums Core_Model Core_Spec Core_Proofs Core_Props NT NT_Cong Primality_Model Primes_Spec Primes_Props QR_Spec QR_Proofs Sqrt_Proofs2 Find_Model Find_Spec Find_Proofs Find_Proofs2 Find_Proofs3 Find_Proofs4 Find_Proofs5 Find_Proofs6.
Import ListNotations.
Open Scope Z_scope.

(** ** Congruent squares *)
Lemma map_combine_range {B} (h : Z -> Z -> B) l l' : length l = length l' -> map (fun '(a, b) => h a b) (combine l l') = map (fun i => h (rd l i) (rd l' i)) (zrange 0 (zlen l)).
Proof.
  revert l'. induction l as [|x l IH]; intros [|y l'] H; try discriminate; [reflexivity|]. injection H as H. cbn [combine map]. unfold zlen. cbn [length]. rewrite zrange_cons by lia. cbn [map]. f_equal; try reflexivity. rewrite IH by exact H.
  replace (0 + 1) with 1 by lia. replace (Z.of_nat (S (length l))) with (zlen l + 1) by (unfold zlen; lia). change 1 with (0 + 1) at 1. rewrite Core_Proofs2.zrange_shift, map_map. apply map_ext_in. intros i Hi%zrange_In. unfold rd. destruct (Z.ltb_spec i 0); [lia|]. destruct (Z.ltb_spec (i + 1) 0); [lia|]. replace (Z.to_nat (i + 1)) with (S (Z.to_nat i)) by lia. reflexivity.
Qed.

Lemma zprod_map_mul {A} (f g : A -> Z) l : zprod (map f l) * zprod (map g l) = zprod (map (fun x => f x * g x) l).
Proof. induction l as [|x l IH]; [reflexivity|]. cbn [map zprod fold_right]. fold (zprod (map f l)). fold (zprod (map g l)). fold (zprod (map (fun x => f x * g x) l)). rewrite <- IH. ring. Qed.

Lemma dot_snoc s x rows row j : length s = length rows -> dot (s ++ [x]) (rows ++ [row]) j = dot s rows j + x * nth j row 0.
Proof.
  revert rows. induction s as [|y s IH]; intros [|r rows] H; try discriminate; [unfold dot; cbn; lia|]. injection H as H. specialize (IH rows H). unfold dot in *. cbn [app combine map zsum fold_right] in *. unfold zsum in IH. rewrite IH. ring.
Qed.

Lemma firstn_snoc {A} (l : list A) k d : (k < length l)%nat -> firstn (S k) l = firstn k l ++ [nth k l d].
Proof. revert k. induction l as [|x l IH]; intros [|k] H; cbn [length] in H; try lia; [reflexivity|]. change (firstn (S (S k)) (x :: l)) with (x :: firstn (S k) l). rewrite IH by lia. reflexivity. Qed.

Lemma rd_nth l i : 0 <= i -> rd l i = nth (Z.to_nat i) l 0.
Proof. intros H. unfold rd. destruct (Z.ltb_spec i 0); [lia|reflexivity]. Qed.

Lemma pyget_nth {A} (l : list A) i d : 0 <= i < Z.of_nat (length l) -> pyget l i = Ret (nth (Z.to_nat i) l d).
Proof.
  intros H. unfold pyget, pyidx. destruct (Z.leb_spec 0 i); [|lia]. destruct (Z.ltb_spec i (Z.of_nat (length l))); [|lia]. cbn [andb].
  destruct (nth_error l (Z.to_nat i)) eqn:N; [|apply nth_error_None in N; lia]. f_equal. symmetry. apply nth_error_nth, N.
Qed.

Section Relation.
  Context (n : Z) (base : list Z) (M : list (list Z)) (a_list v : list Z).
  Hypothesis Hn : n <> 0.
  Hypothesis Ha : length a_list = length M.
  Hypothesis HM : forall row, In row M -> exponent_vector base row.
  Hypothesis Hrel : forall j, (j < length M)%nat -> cg n (nth j a_list 0 * nth j a_list 0) (base_value base (nth j M [])).
  Hypothesis Hv : in_kernel (length base) M v.
  Let L := Z.of_nat (length base).
  Let fv (F : Z -> Z) := zprod (map (fun f => rd base f ^ F f) (zrange 0 L)).
  Let D (j f : Z) := dot (firstn (Z.to_nat j) v) (firstn (Z.to_nat j) M) (Z.to_nat f).

  Lemma fv_base es : exponent_vector base es -> base_value base es = fv (rd es).
  Proof using. intros [H _]. unfold base_value, fv, L. rewrite (map_combine_range (fun p e => p ^ e)) by congruence. reflexivity. Qed.

  Lemma fv_add F G : (forall f, 0 <= f < L -> 0 <= F f /\ 0 <= G f) -> fv (fun f => F f + G f) = fv F * fv G.
  Proof using. intros H. unfold fv. rewrite zprod_map_mul. f_equal. apply map_ext_in. intros f Hf%zrange_In. apply Z.pow_add_r; apply H, Hf. Qed.

  Lemma fv_ext F G : (forall f, 0 <= f < L -> F f = G f) -> fv F = fv G.
  Proof using. intros H. unfold fv. f_equal. apply map_ext_in. intros f Hf%zrange_In. rewrite H by exact Hf. reflexivity. Qed.

  Lemma row_nonneg j f : (j < length M)%nat -> 0 <= nth f (nth j M []) 0.
  Proof using All. intros Hj. destruct (HM (nth j M []) (nth_In _ _ Hj)) as [_ H]. destruct (nth_in_or_default f (nth j M []) 0) as [X| ->]; [apply H, X|lia]. Qed.

  Lemma D_S j f : 0 <= j < Z.of_nat (length M) -> D (j + 1) f = D j f + nth (Z.to_nat j) v 0 * nth (Z.to_nat f) (nth (Z.to_nat j) M []) 0.
  Proof using All.
    intros Hj. destruct Hv as (Lv & _ & _). unfold D. replace (Z.to_nat (j + 1)) with (S (Z.to_nat j)) by lia. rewrite (firstn_snoc v _ 0), (firstn_snoc M _ []) by lia. apply dot_snoc. rewrite !firstn_length. lia.
  Qed.

  Lemma D_nonneg j f : 0 <= j <= Z.of_nat (length M) -> 0 <= D j f.
  Proof using All.
    intros [H0 H1]. revert H1. pattern j. apply natlike_ind; [intros _; unfold D; cbn; lia| |exact H0]. intros k Hk IH H1. unfold Z.succ. rewrite D_S by lia. destruct Hv as (Lv & Bv & _). specialize (IH ltac:(lia)). pose proof (row_nonneg (Z.to_nat k) (Z.to_nat f) ltac:(lia)).
    destruct (Bv (nth (Z.to_nat k) v 0)) as [-> | ->]; [apply nth_In; lia|lia|lia].
  Qed.

  Lemma relation_ok : exists x y, relation n L base M a_list v = Ret (x, y) /\ cg n (x * x) (y * y).
  Proof using All.
    destruct Hv as (Lv & Bv & Kv). unfold relation.
    destruct (foldM_range (fun '(y, x2) j => do b <- pyget v j; if b =? 0 then Ret (y, x2) else do a <- pyget a_list j; do y <- pymod (a * y) n; do row <- pyget M j; do x2 <- mapM (fun f => do s <- pyget x2 f; do t <- pyget row f; Ret (s + t)) (zrange 0 L); Ret (y, x2))
      (fun j s => snd s = map (D j) (zrange 0 L) /\ cg n (fst s * fst s) (fv (D j))) 0 (Z.of_nat (length v)) (1, repeat 0 (Z.to_nat L))) as ([y x2] & E & X2 & Y).
    - lia.
    - cbn [fst snd]. split.
      + unfold D. cbn [firstn Z.to_nat]. unfold dot. cbn [combine map zsum fold_right]. replace (Z.to_nat L) with (length (zrange 0 L)) by (rewrite zrange_length; lia). clear. induction (zrange 0 L) as [|x l IH]; [reflexivity|]. cbn [length repeat map]. f_equal. exact IH.
      + rewrite (fv_ext (D 0) (fun _ => 0)) by reflexivity. unfold fv. assert (Z1 : zprod (map (fun f => rd base f ^ 0) (zrange 0 L)) = 1); [|rewrite Z1; reflexivity]. clear. induction (zrange 0 L) as [|x l IH]; [reflexivity|]. cbn [map zprod fold_right]. fold (zprod (map (fun f => rd base f ^ 0) l)). rewrite IH, Z.pow_0_r. reflexivity.
    - intros j [y x2] Hj [H1 H2]. cbn [fst snd] in *. rewrite Lv in Hj. rewrite (pyget_nth v j 0) by lia. cbn [bind]. set (b := nth (Z.to_nat j) v 0). assert (Hb : b = 0 \/ b = 1) by (apply Bv, nth_In; lia).
      destruct (Z.eqb_spec b 0) as [B0|B0].
      + eexists. split; [reflexivity|]. cbn [fst snd]. split; [rewrite H1; apply map_ext_in; intros f Hf; rewrite D_S by lia; fold b; rewrite B0; ring|]. rewrite H2. rewrite (fv_ext (D (j + 1)) (D j)); [reflexivity|]. intros f Hf. rewrite D_S by lia. fold b. rewrite B0. ring.
      + assert (B1 : b = 1) by tauto. rewrite (pyget_nth a_list j 0) by lia. cbn [bind]. unfold pymod. destruct (Z.eqb_spec n 0); [contradiction|]. cbn [bind]. rewrite (pyget_nth M j []) by lia. cbn [bind]. set (row := nth (Z.to_nat j) M []). assert (Hr : exponent_vector base row) by (apply HM, nth_In; lia). destruct Hr as [Lr Hr].
        assert (EM : mapM (fun f => do s <- pyget x2 f; do t <- pyget row f; Ret (s + t)) (zrange 0 L) = Ret (map (D (j + 1)) (zrange 0 L))).
        { apply mapM_ret. intros f Hf%zrange_In. rewrite H1. rewrite (pyget_nth _ f 0) by (rewrite map_length, zrange_length; lia). cbn [bind]. rewrite (pyget_nth row f 0) by (rewrite Lr; exact Hf). cbn [bind]. f_equal.
          rewrite (nth_map_lt (D j) (zrange 0 L) (Z.to_nat f) 0) by (rewrite zrange_length; lia). rewrite zrange_nth by lia. rewrite D_S by lia. fold b row. rewrite B1. replace (0 + Z.of_nat (Z.to_nat f)) with f by lia. ring. }
        rewrite EM. cbn [bind]. eexists. split; [reflexivity|]. cbn [fst snd]. split; [reflexivity|]. rewrite !cg_mod. set (a := nth (Z.to_nat j) a_list 0). replace (a * y * (a * y)) with (a * a * (y * y)) by ring. rewrite H2. unfold a. rewrite (Hrel (Z.to_nat j)) by lia. fold row. rewrite (fv_base row) by (split; assumption). rewrite Z.mul_comm, <- fv_add.
        * rewrite (fv_ext (D (j + 1)) (fun f => D j f + rd row f)); [reflexivity|]. intros f Hf. rewrite D_S by lia. fold b row. rewrite B1, rd_nth by lia. ring.
        * intros f Hf. split; [apply D_nonneg; lia|]. rewrite rd_nth by lia. apply row_nonneg. lia.
    - assert (X : exists x, foldM (fun x j => do p <- pyget base j; do e <- pyget x2 j; Ret (x * p ^ (e / 2))) (zrange 0 L) 1 = Ret x /\ x = zprod (map (fun f => rd base f ^ (D (Z.of_nat (length v)) f / 2)) (zrange 0 L))).
      { apply (foldM_range (fun x j => do p <- pyget base j; do e <- pyget x2 j; Ret (x * p ^ (e / 2))) (fun j x => x = zprod (map (fun f => rd base f ^ (D (Z.of_nat (length v)) f / 2)) (zrange 0 j)))).
        - unfold L. lia.
        - reflexivity.
        - intros j x Hj ->. rewrite (rd_get base j) by exact Hj. cbn [bind snd] in *. rewrite X2. rewrite (pyget_nth _ j 0) by (rewrite map_length, zrange_length; lia). cbn [bind]. eexists. split; [reflexivity|]. rewrite (zrange_snoc 0 j) by lia. rewrite map_app, zprod_app. cbn [map zprod fold_right]. rewrite (nth_map_lt (D (Z.of_nat (length v))) (zrange 0 L) (Z.to_nat j) 0) by (rewrite zrange_length; lia). rewrite zrange_nth by lia. replace (0 + Z.of_nat (Z.to_nat j)) with j by lia. unfold zprod. cbn [fold_right]. ring. }
      destruct X as (x & Ex & Vx). exists x, y. rewrite E. cbn [bind]. rewrite Ex. cbn [bind]. split; [reflexivity|]. cbn [fst] in Y. rewrite Y. rewrite Vx, zprod_map_mul. unfold fv.
      replace (map (fun x0 => rd base x0 ^ (D (Z.of_nat (length v)) x0 / 2) * rd base x0 ^ (D (Z.of_nat (length v)) x0 / 2)) (zrange 0 L)) with (map (fun f => rd base f ^ D (Z.of_nat (length v)) f) (zrange 0 L)); [reflexivity|].
      apply map_ext_in. intros f Hf%zrange_In. pose proof (D_nonneg (Z.of_nat (length v)) f ltac:(lia)) as N. rewrite <- Z.pow_add_r by (apply Z.div_pos; lia). f_equal.
      assert (Ev : Z.even (D (Z.of_nat (length v)) f) = true). { unfold D. rewrite Nat2Z.id, firstn_all, Lv, firstn_all. apply Kv. unfold L in Hf. lia. }
      apply Z.even_spec in Ev as [h Eh]. rewrite Eh. rewrite Z.mul_comm, Z.div_mul by lia. lia.
  Qed.
End Relation.
