(** * The weighted search is sound for all weights *)
From Coq Require Import ZArith List Lia Bool Permutation.
From Verif Require Import Base Py Dict Lists Lists2 Graph_Model Graph_Spec Graph_Proofs Graph_Proofs2 Trav_Model Trav_Proofs Cliq_Model Cliq_Spec Cliq_Proofs Color_Model Color_Spec Color_Proofs MaxCliq_Model MaxCliq_Proofs.
Import ListNotations.
Open Scope Z_scope.

Section Sound.
  Context (g : graph) (wt : Z -> Z) (stop : bool) (vs : list Z).
  Hypothesis Hg : undirected g.

  Definition sound (st : mstate) : Prop := clique g (snd (fst st)) /\ best_size st = weigh wt (snd (fst st)) /\ 0 <= best_size st.

  Lemma clique_snoc used u : clique g used -> vertex g u -> ~ In u used -> (forall x, In x used -> edge g x u) -> clique g (used ++ [u]).
  Proof using Hg.
    intros (N & V & E) Vu Nu Hu. split; [|split].
    - apply (Permutation_NoDup (Permutation_cons_append used u)). constructor; assumption.
    - intros x Hx. apply in_app_or in Hx as [Hx|[<-|[]]]; [apply V, Hx|exact Vu].
    - intros x y Hx Hy Nxy. apply in_app_or in Hx as [Hx|[<-|[]]]; apply in_app_or in Hy as [Hy|[<-|[]]].
      + apply E; assumption.
      + apply Hu, Hx.
      + apply (esym g Hg), Hu, Hy.
      + congruence.
  Qed.

  Definition joinable (used c : list Z) : Prop := forall x, In x c -> vertex g x /\ ~ In x used /\ forall y, In y used -> edge g y x.

  Lemma msearch_sound largest : forall fuel c size used st, clique g used -> size = weigh wt used -> joinable used c -> sound st ->
    sound (msearch g wt largest stop vs fuel c size used st).
  Proof using Hg.
    induction fuel as [|f IH]; intros c size used st Hu Hs Hc Hst; [exact Hst|]. rewrite msearch_S. destruct c as [|x0 c0] eqn:Ec.
    - destruct (Z.ltb_spec (best_size st) size) as [L|L]; [|exact Hst]. split; [exact Hu|]. split; [exact Hs|]. destruct Hst as (_ & _ & H). cbn. lia.
    - rewrite <- Ec in *. clear x0 c0 Ec. revert c st Hc Hst. generalize vs at 2 as rest.
      induction rest as [|u rest IHr]; intros c st Hc Hst; cbn [mloop]; [exact Hst|]. destruct c as [|x0 c0] eqn:Ec; [exact Hst|]. rewrite <- Ec in *. clear x0 c0 Ec.
      destruct (_ <=? _); [exact Hst|]. destruct (mem u c) eqn:M; [|apply IHr; assumption]. destruct (lim_cut _ _ _ _); [exact Hst|]. cbv zeta.
      apply mem_In in M. destruct (Hc u M) as (Vu & Nu & Au).
      assert (S1 : sound (msearch g wt largest stop vs f (inter (discard c u) (nbr g u)) (size + wt u) (used ++ [u]) st)).
      { apply IH; [apply clique_snoc; assumption|rewrite weigh_app, Hs; cbn; lia| |exact Hst].
        intros x Hx. apply inter_In in Hx as [Hx He]. apply discard_In in Hx as [Hx Nx]. destruct (Hc x Hx) as (Vx & Nx' & Ax). split; [exact Vx|].
        split; [intros H; apply in_app_or in H as [H|[H|[]]]; congruence|]. intros y Hy. apply in_app_or in Hy as [Hy|[<-|[]]]; [apply Ax, Hy|apply (nbr_In g), He]. }
      destruct (stop && _); [exact S1|]. apply IHr; [|exact S1]. intros x Hx. apply Hc. apply discard_In in Hx. tauto.
  Qed.

  Hypothesis Hl : loop_free g.

  Lemma stages_sound : forall suffix, (forall v, In v suffix -> vertex g v) -> sound (fst (stages g wt stop vs suffix)).
  Proof using Hg Hl.
    induction suffix as [|u rest IH]; intros Hv; cbn [stages].
    - split; [apply clique_nil|]. split; [reflexivity|cbn; lia].
    - specialize (IH (fun v H => Hv v (or_intror H))). destruct (stages g wt stop vs rest) as [st largest]. cbn [fst] in *.
      apply msearch_sound.
      + split; [constructor; [intros []|constructor]|]. split; [intros x [<-|[]]; apply Hv; left; reflexivity|intros x y [<-|[]] [<-|[]] N; congruence].
      + cbn. lia.
      + intros x Hx. apply inter_In in Hx as [Hx He]. apply (nbr_In g) in He. split; [apply Hv, Hx|]. split; [|intros y [<-|[]]; exact He].
        intros [<-|[]]. destruct He as (w & Hw). rewrite Hl in Hw. discriminate.
      + exact IH.
  Qed.
End Sound.

Lemma maximum_weight_clique_sound g ord wm : undirected g -> loop_free g -> (forall l, Permutation (ord l) l) ->
  (forall v, vertex g v -> exists w, dget wm v = Some w) ->
  exists w c, maximum_weight_clique g ord (Some wm) = Ret (w, c) /\ clique g c /\
    w = weigh (fun v => match dget wm v with Some w => w | None => 0 end) c /\ 0 <= w.
Proof.
  intros Hg Hl Ho Hw. unfold maximum_weight_clique.
  replace (forallb (dmem wm) (dkeys g)) with true.
  2:{ symmetry. apply forallb_forall. intros v Hv. destruct (Hw v Hv) as (w & E). unfold dmem. rewrite E. reflexivity. }
  set (wt := fun v => match dget wm v with Some w => w | None => 0 end). set (vs := sort_by _ (ord (dkeys g))).
  assert (Pv : Permutation vs (dkeys g)) by (unfold vs; rewrite sort_by_perm; apply Ho).
  pose proof (stages_sound g wt false vs Hg Hl vs (fun v H => Permutation_in v Pv H)) as K. unfold sound, best_size in K.
  destruct (fst (fst (stages g wt false vs vs))) as [w c]. exists w, c. split; [reflexivity|]. exact K.
Qed.
