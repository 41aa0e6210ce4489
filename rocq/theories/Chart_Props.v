(** * C14: the heap sieve of Chartres *)
From Coq Require Import ZArith List Bool Lia Permutation Sorting.Sorted Znumtheory.
From Verif Require Import Base Loop Lists2 NT Primes_Spec Paths_Model Paths_Proofs2 Sieves_Proofs Bertrand2 Chart_Model Chart_Proofs.
Import ListNotations.
Open Scope Z_scope.

Lemma sorted_split l p : StronglySorted Z.lt l -> In p l ->
  exists A B, l = A ++ p :: B /\ (forall a, In a A -> a < p) /\ (forall b, In b B -> p < b) /\ StronglySorted Z.lt B.
Proof.
  induction 1 as [|x l S IH F]; intros I; [destruct I|]. rewrite Forall_forall in F. destruct I as [->|I].
  - exists [], l. split; [reflexivity|]. split; [intros a []|]. split; [exact F|exact S].
  - destruct (IH I) as (A & B & -> & H1 & H2 & H3). exists (x :: A), B. split; [reflexivity|]. split; [|split; [exact H2|exact H3]].
    intros a [<-|J]; [apply F, I|apply H1, J].
Qed.

Lemma filter_lt A B p : (forall a, In a A -> a < p) -> (forall b, In b B -> p <= b) -> filter (fun x => x <? p) (A ++ B) = A.
Proof.
  intros HA HB. rewrite filter_app. replace (filter (fun x => x <? p) B) with (@nil Z).
  - rewrite app_nil_r. induction A as [|a A IH]; [reflexivity|]. cbn [filter]. rewrite (proj2 (Z.ltb_lt a p)) by (apply HA; left; reflexivity). f_equal. apply IH. intros x I. apply HA. right; exact I.
  - induction B as [|b B IH]; [reflexivity|]. cbn [filter]. rewrite (proj2 (Z.ltb_ge b p)) by (apply HB; left; reflexivity). apply IH. intros x I. apply HB. right; exact I.
Qed.

(** The state at the head of the main loop. *)
Definition inv (s : list Z * Z * Z * Z * Z * Z * list entry) : Prop :=
  exists primes c size q t p heap, s = (primes, c, dstep c, size, q, t, heap) /\ c6 c /\ 5 <= c <= t /\ p <= c /\ heap <> [] /\
    hinv c q t p heap /\ below c primes /\ Z.of_nat (length (filter (fun x => x <? p) primes)) = size + 2.

Lemma hinv_weaken c c' q t p heap : c <= c' -> hinv c q t p heap -> hinv c' q t p heap.
Proof.
  intros L (I1 & I2). split; [|exact I2]. intros e Ie. destruct (I1 e Ie) as ((r & k & A1 & A2 & A3 & A4 & A5 & A6) & A7). split; [|exact A7].
  exists r, k. split; [exact A1|]. split; [exact A2|]. split; [exact A3|]. split; [exact A4|]. split; [exact A5|]. intros j Cj Bj. destruct (A6 j Cj Bj); [left; lia|right; assumption].
Qed.

Lemma push_ok primes size t p heap : hinv t t t p heap -> heap <> [] -> below t primes -> Z.of_nat (length (filter (fun x => x <? p) primes)) = size + 2 ->
  exists u heap', push_prime primes t size t heap = Ret (size + 1, u * u, heap') /\ t < u * u /\ u < t /\ heap' <> [] /\ hinv t t (u * u) u heap' /\
    Z.of_nat (length (filter (fun x => x <? u) primes)) = size + 1 + 2.
Proof.
  intros (I1 & I2 & I3 & I4 & I5 & I6 & I7 & I8 & I9) Hne (S & B) L.
  assert (Ip : In p primes) by (apply B; right; split; [exact I3|]; rewrite I5; nia).
  destruct (sorted_split primes p S Ip) as (A & R & E & HA & HR & SR).
  assert (LA : Z.of_nat (length A) = size + 2).
  { rewrite E, (filter_lt A (p :: R)) in L; [exact L|exact HA|]. intros b [<-|J]; [lia|]. specialize (HR b J). lia. }
  destruct (bertrand p ltac:(lia)) as (p' & Pp' & Bp').
  assert (Ip' : In p' R).
  { assert (J : In p' primes) by (apply B; right; split; [exact Pp'|]; rewrite I5; nia). rewrite E in J. apply in_app_iff in J. destruct J as [J|[J|J]]; [specialize (HA p' J); lia|lia|exact J]. }
  destruct R as [|u R]; [destruct Ip'|]. apply StronglySorted_inv in SR. destruct SR as (SR' & FR). rewrite Forall_forall in FR.
  assert (Iu : In u primes) by (rewrite E; apply in_app_iff; right; right; left; reflexivity).
  assert (Pu : prime u /\ u < t) by (apply B in Iu; specialize (HR u (or_introl eq_refl)); destruct Iu as [K|K]; [lia|exact K]). destruct Pu as (Pu & Lu).
  assert (Lpu : p < u) by (apply HR; left; reflexivity).
  assert (No : forall r, prime r -> p < r -> u <= r).
  { intros r Pr Lr. destruct (Z.le_gt_cases u r) as [|G]; [assumption|exfalso]. assert (J : In r primes) by (apply B; right; split; [exact Pr|lia]).
    rewrite E in J. apply in_app_iff in J. destruct J as [J|[J|[J|J]]]; [specialize (HA r J); lia|lia|lia|specialize (FR r J); lia]. }
  assert (Lt : t < u * u) by (rewrite I5; apply Z.mul_lt_mono_nonneg; lia).
  assert (Cu : c6 u) by (apply c6_prime; [exact Pu|lia]).
  assert (Pg : pyget primes (size + 1 + 2) = Ret u).
  { rewrite (pyget_nth _ _ 0).
    - f_equal. rewrite E. rewrite app_nth2 by lia. replace (Z.to_nat (size + 1 + 2) - length A)%nat with 1%nat by lia. reflexivity.
    - rewrite E, app_length. cbn [length]. lia. }
  assert (Pp : push_prime primes t size t heap = Ret (size + 1, u * u, (u * u, u * dstep u, 6 * u) :: heap)).
  { unfold push_prime. rewrite Z.eqb_refl, Pg. cbn [bind]. destruct (c6_cases u Cu) as (a & [(Ea & D)|(Ea & D)]); rewrite D.
    - replace (u mod 3) with 1 by (rewrite Ea; replace (6 * a + 1) with (1 + (2 * a) * 3) by ring; rewrite Z_mod_plus_full; reflexivity). cbn [Z.eqb Pos.eqb]. rewrite (Z.mul_comm u 4). reflexivity.
    - replace (u mod 3) with 2 by (rewrite Ea; replace (6 * a + 5) with (2 + (2 * a + 1) * 3) by ring; rewrite Z_mod_plus_full; reflexivity). cbn [Z.eqb Pos.eqb]. rewrite (Z.mul_comm u 2). reflexivity. }
  exists u. eexists. split; [exact Pp|]. split; [exact Lt|]. split; [exact Lu|]. split; [discriminate|]. split.
  - split; [|split; [|split; [exact Pu|split; [lia|split; [reflexivity|split; [lia|split; [|split; [exact I8|exact I9]]]]]]]].
    + intros e [<-|J]; [|apply I1, J]. split; [|unfold val; cbn [fst]; lia]. exists u, u. split; [exact Pu|]. split; [lia|]. split; [lia|]. split; [exact Cu|]. split; [reflexivity|]. intros j _ Bj. lia.
    + intros r Pr Br. destruct (Z.le_gt_cases r p) as [Lr|Lr].
      * destruct (I2 r Pr ltac:(lia)) as (e & Ie & Ee). exists e. split; [right; exact Ie|exact Ee].
      * specialize (No r Pr ltac:(lia)). eexists. split; [left; reflexivity|]. cbn [snd]. lia.
    + intros _. eexists. split; [left; reflexivity|]. reflexivity.
  - rewrite E. replace (A ++ p :: u :: R) with ((A ++ [p]) ++ u :: R) by (rewrite <- app_assoc; reflexivity). rewrite filter_lt.
    + rewrite app_length. cbn [length]. lia.
    + intros a J. apply in_app_iff in J. destruct J as [J|[<-|[]]]; [specialize (HA a J); lia|exact Lpu].
    + intros b [<-|J]; [lia|specialize (FR b J); lia].
Qed.

(** ** C14: chartres(n) is the list of the primes <= n, for every n. *)
Theorem C14_chartres : forall n, exists l, chartres n = Ret (Some l) /\ primes_upto n l.
Proof.
  intros n. unfold chartres.
  apply (run_rule (round n) inv (fun s => let '(_, c, _, _, _, _, _) := s in Z.max 0 (n + 1 - c)) (fun r => exists l, r = Ret (Some l) /\ primes_upto n l)).
  - intros s (primes & c & size & q & t & p & heap & -> & Cc & Bc & Lp & Ne & H & B & L). unfold round. destruct heap as [|e0 h0]; [contradiction|].
    destruct (pop_ok c q t p (e0 :: h0) Cc ltac:(lia) Ne H) as (q' & heap' & -> & H' & Lq & Ne').
    destruct (Z.ltb_spec n c) as [Ln|Ln].
    + eexists. split; [reflexivity|]. destruct B as (S & B). split.
      * clear - S. induction S as [|x l S IH F]; cbn [filter]; [constructor|]. destruct (negb (x =? 0) && (x <=? n))%bool; [|exact IH]. constructor; [exact IH|].
        rewrite Forall_forall in *. intros y I. apply filter_In in I. apply F, I.
      * intros x. rewrite filter_In, B, andb_true_iff, negb_true_iff, Z.eqb_neq, Z.leb_le. split; [intros ([K|(K1 & K2)] & K3 & K4); [lia|auto]|].
        intros (P & K). pose proof (prime_ge2 x P). split; [right; split; [exact P|lia]|lia].
    + destruct (add_ok c q' t p heap' primes Cc ltac:(lia) H' B) as (more & -> & B' & Ml).
      assert (Cq : c6 q') by apply H'. destruct (c6_next q' Cq) as (N1 & N2 & N3 & N4).
      assert (Cmp : ~ prime q') by (destruct H' as (_ & _ & _ & _ & _ & _ & _ & (r & k & Pr & K2 & ->) & _); apply prime_not_prime_mul; [exact (prime_ge2 r Pr)|exact K2]).
      assert (L' : Z.of_nat (length (filter (fun x => x <? p) (primes ++ more))) = size + 2).
      { rewrite filter_app. replace (filter (fun x => x <? p) more) with (@nil Z); [rewrite app_nil_r; exact L|]. symmetry. rewrite <- (filter_lt [] more p); [reflexivity|intros a []|].
        intros b I. specialize (Ml b I). lia. }
      assert (Hq : hinv q' q' t p heap') by (apply (hinv_weaken c); [lia|exact H']).
      assert (Lt : q' <= t) by apply H'.
      destruct (Z.eq_dec q' t) as [->|Nt].
      * destruct (push_ok (primes ++ more) size t p heap' Hq Ne' B' L') as (u & h2 & -> & U1 & U2 & U3 & U4 & U5).
        assert (Cuu : c6 (u * u)) by (assert (Cu : c6 u) by (apply c6_prime; apply U4); apply c6_mul; exact Cu).
        split; [|lia]. exists (primes ++ more), (t + dstep t), (size + 1), t, (u * u), u, h2. rewrite N2. split; [reflexivity|]. split; [exact N1|].
        split; [specialize (N4 (u * u) Cuu U1); lia|]. split; [lia|]. split; [exact U3|]. split; [apply (hinv_weaken t); [lia|exact U4]|].
        split; [apply below_next_composite; [exact Cq|lia|exact B'|exact Cmp]|exact U5].
      * unfold push_prime. destruct (Z.eqb_spec q' t); [contradiction|]. split; [|lia].
        assert (Ct : c6 t) by (destruct H' as (_ & _ & P1 & P2 & -> & _); apply c6_mul; apply c6_prime; assumption).
        exists (primes ++ more), (q' + dstep q'), size, q', t, p, heap'. rewrite N2. split; [reflexivity|]. split; [exact N1|]. split; [specialize (N4 t Ct ltac:(lia)); lia|].
        split; [lia|]. split; [exact Ne'|]. split; [apply (hinv_weaken q'); [lia|exact Hq]|]. split; [apply below_next_composite; [exact Cq|lia|exact B'|exact Cmp]|exact L'].
  - exists [0; 2; 3], 5, 1, 25, 25, 5, [(25, 10, 30)]. split; [reflexivity|]. split; [right; reflexivity|]. split; [lia|]. split; [lia|]. split; [discriminate|].
    assert (P5 : prime 5) by exact prime_5. split; [|split; [|reflexivity]].
    + split; [|split; [|split; [exact P5|split; [lia|split; [reflexivity|split; [lia|split; [lia|split; [exists 5, 5; split; [exact P5|lia]|left; reflexivity]]]]]]]].
      * intros e [<-|[]]. split; [|unfold val; cbn; lia]. exists 5, 5. split; [exact P5|]. split; [lia|]. split; [lia|]. split; [right; reflexivity|]. split; [reflexivity|]. intros j _ Bj. lia.
      * intros r _ Br. exists (25, 10, 30). split; [left; reflexivity|]. cbn [snd]. lia.
    + split; [repeat constructor; lia|]. intros x. cbn [In]. split.
      * intros [<-|[<-|[<-|[]]]]; [left; reflexivity|right; split; [apply prime_2|lia]|right; split; [apply prime_3|lia]].
      * intros [->|(P & Lx)]; [auto|]. pose proof (prime_ge2 x P). assert (x = 2 \/ x = 3 \/ x = 4) as [->|[->| ->]] by lia; [auto|auto|].
        exfalso. apply (prime_not_prime_mul 2 2); [lia|lia|exact P].
  - cbn. apply bits_spec.
Qed.
Print Assumptions C14_chartres.

Example chartres_example : chartres 60 = Ret (Some [2; 3; 5; 7; 11; 13; 17; 19; 23; 29; 31; 37; 41; 43; 47; 53; 59]) /\ chartres 1 = Ret (Some []).
Proof. split; vm_compute; reflexivity. Qed.
