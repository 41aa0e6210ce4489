(** * C101: graph objects behave as values *)
From Coq Require Import ZArith List Bool Lia.
From Verif Require Import Base Py Dict Graph_Model Mob_Proofs Gob_Model Gob_Spec Gob_Proofs Gob_Proofs2.
Import ListNotations.
Open Scope Z_scope.

(** Every program does in the store what it does on values: the same exception, or the same graphs; and a dictionary G[u] that was
    kept shows the present neighbours of u in G, or from the deletion of u on those it had then. *)
Theorem C101_values ord p : match grun ord p, vgrun ord p with
  | Ret (h, os, kept), Ret (gs, views) => map (graph_of h) os = gs /\ map (gread h) kept = map (seen gs) views
  | Raise e, Raise e' => e = e'
  | _, _ => False
  end.
Proof.
  assert (Nd : vgrun ord p <> Diverge).
  { unfold vgrun. generalize (([], []) : vgstate) as st. induction p as [|op p IH]; intros st; cbn [foldM]; [discriminate|].
    assert (X : vgstep ord st op <> Diverge).
    { destruct st as [gs vs]. assert (N : forall {A} (l : list A) a, object_named l a <> Diverge) by (intros A l a; unfold object_named; destruct (nth_error l a); discriminate).
      assert (B : forall {A B} (x : outcome A) (f : A -> outcome B), x <> Diverge -> (forall a, f a <> Diverge) -> bind x f <> Diverge) by (intros A B [a|e|] f Hx Hf; cbn; [apply Hf|discriminate|congruence]).
      assert (Dg : forall {V} (d : list (Z * V)) k, dgetM d k <> Diverge) by (intros V d k; unfold dgetM; destruct (dget d k); discriminate).
      assert (Fm : forall {A S} (f : S -> A -> outcome S) l, (forall s x, f s x <> Diverge) -> forall s, foldM f l s <> Diverge) by (intros A S f l Hf; induction l as [|y l IHl]; intros s; cbn [foldM]; [discriminate|apply B; [apply Hf|exact IHl]]).
      destruct op; cbn [vgstep]; try discriminate; (apply B; [apply N|]); intros g; try discriminate.
      - apply B; [apply Dg|]. discriminate.
      - apply B; [|discriminate]. apply B; [|discriminate]. apply B; [apply Dg|discriminate].
      - apply B; [|discriminate]. apply B; [|discriminate]. apply B; [|discriminate]. apply B; [apply Dg|discriminate].
      - apply B; [|discriminate]. apply Fm. intros s x. apply B; [apply Dg|]. intros y. apply Fm. intros s' x'. apply B; [apply Dg|discriminate].
      - apply B; [|discriminate]. unfold complement. generalize (fold_left add_vertex (vertices g) empty_graph) as x. generalize ([] : list Z) as bf. induction (vertices g) as [|u l IHl]; intros bf x; cbn [complement_rows]; [discriminate|].
        apply B; [|intros y; apply IHl]. apply Fm. intros s v. apply B; [apply Dg|discriminate].
      - apply B; [apply Dg|discriminate]. }
    destruct (vgstep ord st op) as [st'|e|]; cbn [bind]; [apply IH|discriminate|congruence]. }
  pose proof (grun_sim ord p) as H. destruct (grun ord p) as [[[h os] kept]|e|], (vgrun ord p) as [[gs views]|e'|]; cbn [sim] in H; try contradiction; [|exact H].
  split; [destruct H as (_ & _ & G & _); symmetry; exact G|exact (ginv_views h os kept gs views H)].
Qed.

(** The graph an operation changes, if any. *)
Definition changed (op : gop) : option nat :=
  match op with
  | GAddVertices a _ | GDelVertices a _ | GAddEdges a _ | GDelEdge a _ _ | GSet a _ _ _ => Some a
  | _ => None
  end.

(** After any program, an operation leaves all graphs as they are but the one it is called on, if it is one that changes graphs. *)
Theorem C101_others ord p op h os kept h' os' kept' : grun ord p = Ret (h, os, kept) -> gstep ord (h, os, kept) op = Ret (h', os', kept') ->
  forall b o, nth_error os b = Some o -> changed op <> Some b -> exists o', nth_error os' b = Some o' /\ graph_of h' o' = graph_of h o.
Proof.
  intros E E' b o Hb N. pose proof (grun_sim ord p) as H. rewrite E in H. destruct (vgrun ord p) as [[gs vws]|e|]; cbn [sim] in H; try contradiction. pose proof (gstep_sim ord _ _ op H) as H'. rewrite E' in H'.
  destruct (vgstep ord (gs, vws) op) as [[gs' vws']|e|] eqn:Ev; cbn [sim] in H'; try contradiction.
  assert (X : nth_error gs' b = nth_error gs b).
  { assert (L : (b < length gs)%nat) by (destruct H as (_ & _ & G & _); cbn in G; subst gs; rewrite map_length; apply nth_error_Some; congruence).
    assert (A1 : forall (g : graph), nth_error (gs ++ [g]) b = nth_error gs b) by (intros g; apply nth_error_app1, L).
    assert (A2 : forall a (g : graph), Some a <> Some b -> nth_error (upd gs a g) b = nth_error gs b) by (intros a g Na; apply upd_other; congruence).
    destruct op; cbn [vgstep changed] in *;
      repeat match goal with Hx : bind ?x _ = Ret _ |- _ => destruct x; cbn [bind] in Hx; try discriminate Hx end;
      injection Ev as <- <-; auto. }
  destruct H as (_ & _ & G & _), H' as (_ & _ & G' & _). cbn [fst] in *. subst gs gs'. rewrite !nth_error_map, Hb in X. destruct (nth_error os' b) as [o'|]; cbn in X; [|discriminate]. exists o'. split; [reflexivity|]. injection X as X. exact X.
Qed.

Print Assumptions C101_values.
Print Assumptions C101_others.

(** A triangle; its copy loses a vertex; G[1] is kept and the vertex 1 deleted, and a new vertex 1 is added. *)
Definition triangle_program : list gop :=
  [GNew; GAddEdges 0 [(0, 1, 5); (1, 2, 6); (2, 0, 7)]; GCopy 0; GView 0 1; GView 0 0; GDelVertices 1 [2]; GSet 0 1 0 9; GDelVertices 0 [1]; GAddEdges 0 [(0, 1, 3)]; GComplement 0; GInduced 1 [0; 1]].
Example triangle_run : match grun (fun l => l) triangle_program with
  | Ret (h, os, kept) => map (graph_of h) os = [[(0, [(2, 7); (1, 3)]); (2, [(0, 7)]); (1, [(0, 3)])]; [(0, [(1, 5)]); (1, [(0, 5)])]; [(0, []); (1, [(2, 1)]); (2, [(1, 1)])]; [(0, [(1, 5)]); (1, [(0, 5)])]] /\
      map (gread h) kept = [[(0, 9); (2, 6)]; [(2, 7); (1, 3)]]
  | _ => False
  end.
Proof. vm_compute. auto. Qed.
Example triangle_missing : grun (fun l => l) [GNew; GSet 0 1 0 9] = Raise KeyError.
Proof. reflexivity. Qed.
