(** * The text of a matrix *)
From Coq Require Import Ascii String ZArith List Bool Lia.
From Verif Require Import Base Py Lists Lists2 Mat_Spec Mat_Model Mat_Proofs Repr_Spec Repr_Model Repr_Proofs.
Import ListNotations.
Open Scope Z_scope.

(** ** Lines *)
Definition line (w : nat) (row : list Z) : text := txt "[" ++ join (txt " ") (map (padded w) row) ++ txt "]".

Lemma rjust_padded w z : rjust (Z.of_nat w) (str z) = padded w z.
Proof. unfold rjust, padded, tlen. do 2 f_equal. lia. Qed.

Lemma join_cons sep (x : text) l : join sep (x :: l) = x ++ (match l with [] => [] | _ => sep ++ join sep l end).
Proof. destruct l; [cbn [join]; rewrite app_nil_r; reflexivity|reflexivity]. Qed.

Lemma skipn_nth {A} (l : list A) k d : (k < length l)%nat -> skipn k l = nth k l d :: skipn (S k) l.
Proof.
  revert k. induction l as [|x l IH]; intros [|k] H; cbn [length] in H; try lia; [reflexivity|]. cbn [skipn nth]. apply IH. lia.
Qed.

Section Table.
  Context (M : list (list Z)) (r c : nat).
  Hypothesis HM : shape M r c.
  Hypothesis Hr : (1 <= r)%nat.

  Lemma dims : nrows M = Z.of_nat r /\ ncols M = Z.of_nat c.
  Proof using HM Hr.
    destruct HM as (L & R). unfold nrows, ncols. rewrite L. split; [reflexivity|]. destruct M as [|row M']; [cbn in L; lia|]. cbn [hd]. rewrite (R row) by (left; reflexivity). reflexivity.
  Qed.

  Lemma row_loop_ok w i : 0 <= i < Z.of_nat r -> forall k, (k <= c)%nat -> forall items,
    foldM (fun items j => do element <- mget M i j; Ret (items ++ rjust (Z.of_nat w) (str element) ++ (if j <? Z.of_nat c - 1 then txt " " else [])))
      (zrange (Z.of_nat (c - k)) (Z.of_nat c)) items = Ret (items ++ join (txt " ") (map (padded w) (skipn (c - k) (nth (Z.to_nat i) M [])))).
  Proof using HM Hr.
    intros Hi. assert (Lr : length (nth (Z.to_nat i) M []) = c) by (destruct HM as (L & R); apply R, nth_In; lia).
    induction k as [|k IH]; intros Hk items.
    - rewrite Nat.sub_0_r, zrange_nil by lia. rewrite skipn_all2 by lia. cbn [map join foldM]. rewrite app_nil_r. reflexivity.
    - rewrite zrange_cons by lia. cbn [foldM]. rewrite (mget_ok M r c) by (assumption || lia). cbn [bind].
      replace (Z.of_nat (c - S k) + 1) with (Z.of_nat (c - k)) by lia. rewrite IH by lia. f_equal.
      rewrite (skipn_nth _ (c - S k) 0) by lia. replace (S (c - S k)) with (c - k)%nat by lia. cbn [map]. rewrite join_cons, <- !app_assoc. f_equal.
      rewrite rjust_padded. unfold en, ent. rewrite Nat2Z.id. f_equal.
      destruct (Z.ltb_spec (Z.of_nat (c - S k)) (Z.of_nat c - 1)) as [H|H].
      + rewrite (skipn_nth _ (c - k) 0) by lia. cbn [map]. reflexivity.
      + rewrite skipn_all2 by lia. reflexivity.
  Qed.

  Lemma rows_loop_ok w : forall k, (k <= r)%nat -> forall items,
    foldM (fun items i =>
      do items <- foldM (fun items j => do element <- mget M i j; Ret (items ++ rjust (Z.of_nat w) (str element) ++ (if j <? Z.of_nat c - 1 then txt " " else [])))
                  (zrange 0 (Z.of_nat c)) (items ++ txt "[");
      Ret (items ++ txt "]" ++ (if i <? Z.of_nat r - 1 then ["010"%char] else [])))
      (zrange (Z.of_nat (r - k)) (Z.of_nat r)) items = Ret (items ++ join ["010"%char] (map (line w) (skipn (r - k) M))).
  Proof using HM Hr.
    induction k as [|k IH]; intros Hk items.
    - rewrite Nat.sub_0_r, (zrange_nil (Z.of_nat r)) by lia. rewrite skipn_all2 by (destruct HM; lia). cbn [map join foldM]. rewrite app_nil_r. reflexivity.
    - rewrite (zrange_cons (Z.of_nat (r - S k))) by lia. cbn [foldM]. pose proof (row_loop_ok w (Z.of_nat (r - S k)) ltac:(lia) c ltac:(lia) (items ++ txt "[")) as E.
      rewrite Nat.sub_diag in E. cbn [skipn] in E. change (Z.of_nat 0) with 0 in E. rewrite E. cbn [bind]. clear E.
      replace (Z.of_nat (r - S k) + 1) with (Z.of_nat (r - k)) by lia. rewrite IH by lia. f_equal. destruct HM as (L & _).
      rewrite (skipn_nth M (r - S k) []) by lia. replace (S (r - S k)) with (r - k)%nat by lia. cbn [map]. rewrite join_cons. unfold line at 2. rewrite <- !app_assoc.
      rewrite Nat2Z.id. do 4 f_equal. destruct (Z.ltb_spec (Z.of_nat (r - S k)) (Z.of_nat r - 1)) as [H|H].
      + rewrite (skipn_nth M (r - k) []) by lia. reflexivity.
      + rewrite skipn_all2 by lia. reflexivity.
  Qed.

  (** ** The width *)
  Definition wide (m : Z) (P : Z -> Z -> Prop) : Prop :=
    0 <= m /\ (forall i j, P i j -> tlen (str (en M i j)) <= m) /\ (m = 0 \/ exists i j, P i j /\ tlen (str (en M i j)) = m).

  Lemma width_ok : exists w, table_width w M /\
    foldM (fun m i => foldM (fun m j => do x <- mget M i j; let item := str x in Ret (if m <? tlen item then tlen item else m)) (zrange 0 (Z.of_nat c)) m)
      (zrange 0 (Z.of_nat r)) 0 = Ret (Z.of_nat w).
  Proof using HM Hr.
    set (In2 := fun i j => 0 <= i < Z.of_nat r /\ 0 <= j < Z.of_nat c).
    assert (Row : forall i (P : Z -> Z -> Prop) m, 0 <= i < Z.of_nat r -> wide m P -> exists m',
      foldM (fun m j => do x <- mget M i j; let item := str x in Ret (if m <? tlen item then tlen item else m)) (zrange 0 (Z.of_nat c)) m = Ret m' /\
      wide m' (fun a b => P a b \/ (a = i /\ 0 <= b < Z.of_nat c))).
    { intros i P m Hi W.
      destruct (foldM_inv (fun m j => do x <- mget M i j; let item := str x in Ret (if m <? tlen item then tlen item else m))
        (fun pre m => wide m (fun a b => P a b \/ (a = i /\ In b pre))) (zrange 0 (Z.of_nat c)) m) as (m' & E & W').
      - destruct W as (W0 & W1 & W2). split; [exact W0|]. split; [intros a b [H|(_ & [])]; apply W1, H|]. destruct W2 as [W2|(a & b & H & E)]; [auto|].
        right. exists a, b. auto.
      - intros pre x post m1 Ex (W0 & W1 & W2). assert (Hx : In x (zrange 0 (Z.of_nat c))) by (rewrite Ex; apply in_elt). apply zrange_In in Hx.
        rewrite (mget_ok M r c) by assumption. cbn [bind]. eexists. split; [reflexivity|]. split; [destruct (m1 <? _); unfold tlen; lia|]. split.
        + intros a b [H|(-> & H)].
          * specialize (W1 a b (or_introl H)). destruct (Z.ltb_spec m1 (tlen (str (en M i x)))); lia.
          * apply in_app_or in H as [H|[<-|[]]].
            -- specialize (W1 i b (or_intror (conj eq_refl H))). destruct (Z.ltb_spec m1 (tlen (str (en M i x)))); lia.
            -- destruct (Z.ltb_spec m1 (tlen (str (en M i x)))); lia.
        + destruct (Z.ltb_spec m1 (tlen (str (en M i x)))).
          * right. exists i, x. split; [right; split; [reflexivity|apply in_elt]|reflexivity].
          * destruct W2 as [W2|(a & b & H' & E)]; [auto|]. right. exists a, b. split; [|exact E]. destruct H' as [H'|(-> & H')]; [auto|].
            right. split; [reflexivity|apply in_or_app; auto].
      - exists m'. split; [exact E|]. destruct W' as (W0 & W1 & W2). split; [exact W0|]. split.
        + intros a b [H|(-> & H)]; apply W1; [auto|right; split; [reflexivity|apply zrange_In, H]].
        + destruct W2 as [W2|(a & b & H & Ea)]; [auto|]. right. exists a, b. split; [|exact Ea]. destruct H as [H|(-> & H)]; [auto|].
          right. split; [reflexivity|apply zrange_In, H]. }
    destruct (foldM_inv (fun m i => foldM (fun m j => do x <- mget M i j; let item := str x in Ret (if m <? tlen item then tlen item else m)) (zrange 0 (Z.of_nat c)) m)
      (fun pre m => wide m (fun a b => In a pre /\ In2 a b)) (zrange 0 (Z.of_nat r)) 0) as (m & E & (W0 & W1 & W2)).
    - split; [lia|]. split; [intros a b ([] & _)|left; reflexivity].
    - intros pre x post m Ex W. assert (Hx : In x (zrange 0 (Z.of_nat r))) by (rewrite Ex; apply in_elt). apply zrange_In in Hx.
      destruct (Row x _ m Hx W) as (m' & E & (W0 & W1 & W2)). exists m'. split; [exact E|]. split; [exact W0|]. split.
      + intros a b (H & H2). apply W1. apply in_app_or in H as [H|[<-|[]]]; [left; auto|right; split; [reflexivity|apply H2]].
      + destruct W2 as [W2|(a & b & H & Ea)]; [auto|]. right. exists a, b. split; [|exact Ea]. destruct H as [(H & H2)|(-> & H)].
        * split; [apply in_or_app; auto|exact H2].
        * split; [apply in_elt|split; assumption].
    - exists (Z.to_nat m). split; [|rewrite E; f_equal; lia]. destruct HM as (L & R). split.
      + intros row z Hrow Hz. destruct (In_nth M row [] Hrow) as (i & Hi & Ei). destruct (In_nth row z 0 Hz) as (j & Hj & Ej).
        specialize (W1 (Z.of_nat i) (Z.of_nat j)). unfold en, ent in W1. rewrite !Nat2Z.id, Ei, Ej in W1. unfold tlen in W1.
        pose proof (R row Hrow). unfold In2 in W1. assert (X : Z.of_nat (length (str z)) <= m) by (apply W1; split; [apply zrange_In|]; lia). lia.
      + destruct W2 as [->|(i & j & (_ & (Hi & Hj)) & Ea)]; [left; reflexivity|]. right. exists (nth (Z.to_nat i) M []), (en M i j).
        assert (Hin : In (nth (Z.to_nat i) M []) M) by (apply nth_In; lia). split; [exact Hin|]. split; [|unfold tlen in Ea; lia].
        unfold en, ent. apply nth_In. rewrite (R _ Hin). lia.
  Qed.

  Lemma m_repr_ok : exists w, table_width w M /\ m_repr M = Ret (table w M).
  Proof using HM Hr.
    destruct width_ok as (w & W & E). exists w. split; [exact W|]. unfold m_repr. cbv zeta in E |- *. destruct dims as (-> & ->). rewrite E. cbn [bind].
    pose proof (rows_loop_ok w r ltac:(lia) []) as X. rewrite Nat.sub_diag in X. cbn [skipn app] in X. change (Z.of_nat 0) with 0 in X. exact X.
  Qed.
End Table.

(** ** Reading a table *)
Lemma spaces_inj k k' s s' : (match s with [] => True | a :: _ => a <> " "%char end) -> (match s' with [] => True | a :: _ => a <> " "%char end) ->
  repeat " "%char k ++ s = repeat " "%char k' ++ s' -> s = s'.
Proof.
  revert k'. induction k as [|k IH]; intros [|k'] H H' E; cbn [repeat app] in E; [exact E| | |].
  - subst s. contradiction.
  - subst s'. contradiction.
  - injection E as E. apply (IH k'); assumption.
Qed.

Lemma num_not_space z t : match str z ++ t with [] => True | a :: _ => a <> " "%char end.
Proof. destruct (num_head z t) as (a & s & -> & H). intros ->. revert H. apply not_num. auto. Qed.

Lemma padded_inj w w' z z' s s' : stops s -> stops s' -> padded w z ++ s = padded w' z' ++ s' -> z = z' /\ s = s'.
Proof.
  intros Hs Hs' E. unfold padded in E. rewrite <- !app_assoc in E. apply spaces_inj in E; [|apply num_not_space|apply num_not_space].
  apply num_inj in E; assumption.
Qed.

Lemma stops_rest w l s : stops ((match map (padded w) l with [] => [] | _ => txt " " ++ join (txt " ") (map (padded w) l) end) ++ txt "]" ++ s).
Proof. destruct l; cbn; apply not_num; auto 8. Qed.

Lemma padded_head w z t : exists a s, padded w z ++ t = a :: s /\ a <> "]"%char.
Proof.
  unfold padded. destruct (w - length (str z))%nat as [|k]; cbn [repeat app].
  - destruct (num_head z t) as (a & s & E & H). exists a, s. split; [exact E|]. intros ->. revert H. apply not_num. auto 6.
  - eexists _, _. split; [reflexivity|discriminate].
Qed.

Lemma fields_inj w w' l : forall l' s s',
  join (txt " ") (map (padded w) l) ++ txt "]" ++ s = join (txt " ") (map (padded w') l') ++ txt "]" ++ s' -> l = l' /\ s = s'.
Proof.
  induction l as [|z l IH]; intros [|z' l'] s s' E.
  - cbn in E. injection E as E. auto.
  - exfalso. cbn [map] in E. rewrite join_cons, <- app_assoc in E. cbn [map join app] in E. destruct (padded_head w' z' ((match map (padded w') l' with [] => [] | _ => txt " " ++ join (txt " ") (map (padded w') l') end) ++ txt "]" ++ s')) as (a & u & Ea & Na).
    rewrite Ea in E. injection E as E _. congruence.
  - exfalso. cbn [map] in E. rewrite join_cons, <- app_assoc in E. cbn [map join app] in E. destruct (padded_head w z ((match map (padded w) l with [] => [] | _ => txt " " ++ join (txt " ") (map (padded w) l) end) ++ txt "]" ++ s)) as (a & u & Ea & Na).
    rewrite Ea in E. injection E as E _. congruence.
  - cbn [map] in E. rewrite !join_cons, <- !app_assoc in E. apply padded_inj in E; [|apply stops_rest|apply stops_rest]. destruct E as (-> & E).
    destruct l as [|z1 l], l' as [|z1' l'].
    + cbn [map app] in E. apply app_inv_head in E. auto.
    + cbn in E. discriminate.
    + cbn in E. discriminate.
    + cbn [map] in E. rewrite <- !app_assoc in E. apply app_inv_head in E. destruct (IH (z1' :: l') s s') as (E1 & E2); [exact E|]. rewrite E1. auto.
Qed.

Lemma line_inj w w' row row' s s' : line w row ++ s = line w' row' ++ s' -> row = row' /\ s = s'.
Proof. intros E. unfold line in E. rewrite <- !app_assoc in E. apply app_inv_head in E. apply fields_inj in E. exact E. Qed.

Lemma table_inj w w' M : forall M', M <> [] -> M' <> [] -> table w M = table w' M' -> M = M'.
Proof.
  unfold table. change (fun row => txt "[" ++ join (txt " ") (map (padded ?w) row) ++ txt "]") with (line w).
  induction M as [|row M IH]; intros [|row' M'] N N' E; try congruence. cbn [map] in E. rewrite !join_cons in E.
  apply line_inj in E as (-> & E). f_equal. destruct M as [|r1 M], M' as [|r1' M'].
  - reflexivity.
  - cbn in E. discriminate.
  - cbn in E. discriminate.
  - cbn [map] in E. cbn [app] in E. injection E as E. apply IH; [discriminate|discriminate|exact E].
Qed.
