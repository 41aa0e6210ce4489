(** * Generators: functions that yield a sequence of values *)
From Coq Require Import ZArith List Lia Sorting.Sorted.
From Verif Require Import Base.
Import ListNotations.
Open Scope Z_scope.

(** How a generator run ends: it returned, it has not finished within the given
    number of resumptions, it raised, or it is stuck in a loop between two yields. *)
Inductive gstatus := GEnded | GMore | GRaised (e : exn) | GStuck.

(** [while True: yield visit(s); s = next(s)], where [next] may also return from
    the generator ([None]) or raise.  [fuel] is the number of values asked for. *)
Fixpoint gen {St A} (visit : St -> A) (next : St -> outcome (option St)) (fuel : nat) (s : St) : list A * gstatus :=
  match fuel with
  | O => ([], GMore)
  | S f => match next s with
           | Ret None => ([visit s], GEnded)
           | Ret (Some s') => let '(l, st) := gen visit next f s' in (visit s :: l, st)
           | Raise e => ([visit s], GRaised e)
           | Diverge => ([visit s], GStuck)
           end
  end.

(** The generator ends after yielding exactly the list [L]. *)
Definition yields {A} (g : nat -> list A * gstatus) (L : list A) : Prop :=
  exists N, forall fuel, (N <= fuel)%nat -> g fuel = (L, GEnded).

(** A generator whose [next] is the successor function of a strict order on a
    finite set, started at the least element, yields the set in order. *)
Section Successor.
  Context {St A : Type} (visit : St -> A) (next : St -> outcome (option St)).
  Context (P : A -> Prop) (F : list A) (Inv : St -> Prop) (lt : A -> A -> Prop).
  Hypothesis Hfin : forall a, P a -> In a F.
  Hypothesis Hirr : forall a, ~ lt a a.
  Hypothesis Htrans : forall a b c, lt a b -> lt b c -> lt a c.
  Hypothesis Htot : forall a b, P a -> P b -> lt a b \/ a = b \/ lt b a.
  Hypothesis Hinv : forall s, Inv s -> P (visit s).
  Hypothesis Hnext : forall s, Inv s ->
    (next s = Ret None /\ forall c, P c -> ~ lt (visit s) c) \/
    (exists s', next s = Ret (Some s') /\ Inv s' /\ lt (visit s) (visit s') /\
       forall c, P c -> lt (visit s) c -> ~ lt c (visit s')).

  Lemma gen_from : forall m s G, (length G <= m)%nat -> Inv s ->
    (forall c, P c -> lt (visit s) c -> In c G) ->
    exists L, yields (fun fuel => gen visit next fuel s) L /\ StronglySorted lt L /\
      (forall x, In x L <-> P x /\ (x = visit s \/ lt (visit s) x)).
  Proof.
    induction m as [|m IH]; intros s G Hm Hs HG.
    - destruct G as [|]; [|cbn in Hm; lia]. destruct (Hnext s Hs) as [[E H]|(s' & E & Hs' & Hlt & _)].
      + exists [visit s]. split; [|split].
        * exists 1%nat. intros [|f] Hf; [lia|]. cbn [gen]. rewrite E. reflexivity.
        * repeat constructor.
        * intros x. split; [intros [<-|[]]; auto|]. intros [Hx [->|Hl]]; [left; reflexivity|destruct (H x Hx Hl)].
      + destruct (HG (visit s') (Hinv s' Hs') Hlt).
    - destruct (Hnext s Hs) as [[E H]|(s' & E & Hs' & Hlt & Hsucc)].
      + exists [visit s]. split; [|split].
        * exists 1%nat. intros [|f] Hf; [lia|]. cbn [gen]. rewrite E. reflexivity.
        * repeat constructor.
        * intros x. split; [intros [<-|[]]; auto|]. intros [Hx [->|Hl]]; [left; reflexivity|destruct (H x Hx Hl)].
      + pose proof (HG _ (Hinv s' Hs') Hlt) as Hin. apply in_split in Hin. destruct Hin as (g1 & g2 & EG).
        destruct (IH s' (g1 ++ g2)) as (L & [N HN] & HS & HL).
        * subst G. rewrite app_length in *. cbn [length] in *. lia.
        * exact Hs'.
        * intros c Hc Hl. assert (Hin : In c G) by (apply HG; [exact Hc|eapply Htrans; eassumption]). subst G.
          apply in_app_or in Hin. apply in_or_app. destruct Hin as [|[<-|]]; auto. destruct (Hirr _ Hl).
        * exists (visit s :: L). split; [|split].
          -- exists (S N). intros [|f] Hf; [lia|]. cbn [gen]. rewrite E, HN by lia. reflexivity.
          -- constructor; [exact HS|]. apply Forall_forall. intros x Hx. apply HL in Hx.
             destruct Hx as [_ [->|Hx]]; [exact Hlt|eapply Htrans; eassumption].
          -- intros x. cbn [In]. rewrite HL. split.
             ++ intros [<-|[Hx [->|Hl]]]; [auto|auto|]. split; [exact Hx|]. right. eapply Htrans; eassumption.
             ++ intros [Hx [->|Hl]]; [left; reflexivity|right]. split; [exact Hx|].
                destruct (Htot x (visit s') Hx (Hinv s' Hs')) as [L1|[->|L1]]; auto. destruct (Hsucc x Hx Hl L1).
  Qed.

  Theorem gen_enum s0 : Inv s0 -> (forall c, P c -> ~ lt c (visit s0)) ->
    exists L, yields (fun fuel => gen visit next fuel s0) L /\ StronglySorted lt L /\ (forall x, In x L <-> P x).
  Proof.
    intros H0 Hmin. destruct (gen_from (length F) s0 F (le_n _) H0) as (L & H1 & H2 & H3).
    - intros c Hc _. apply Hfin, Hc.
    - exists L. split; [exact H1|]. split; [exact H2|]. intros x. rewrite H3. split; [tauto|].
      intros Hx. split; [exact Hx|]. destruct (Htot x (visit s0) Hx (Hinv s0 H0)) as [Hl|[->|Hl]]; auto.
      destruct (Hmin x Hx Hl).
  Qed.
End Successor.

Lemma sorted_irr_NoDup {A} (lt : A -> A -> Prop) (Hirr : forall a, ~ lt a a) L : StronglySorted lt L -> NoDup L.
Proof.
  induction 1 as [|a l Hs IH Hf]; constructor; [|exact IH]. intros Hin. rewrite Forall_forall in Hf.
  exact (Hirr a (Hf a Hin)).
Qed.
