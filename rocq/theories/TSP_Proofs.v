(** * Tours: costs and two-opt *)
From Coq Require Import ZArith List Bool Lia Permutation.
From Verif Require Import Base Py Sums TSP_Model TSP_Spec.
Import ListNotations.
Open Scope Z_scope.

Lemma hd_app (p q : list Z) : p <> [] -> hd 0 (p ++ q) = hd 0 p.
Proof. destruct p; [congruence|reflexivity]. Qed.
Lemma last_app (p q : list Z) : q <> [] -> last (p ++ q) 0 = last q 0.
Proof.
  intros H. destruct (exists_last H) as (l & y & ->). rewrite app_assoc, !last_last. reflexivity.
Qed.
Lemma hd_rev (p : list Z) : hd 0 (rev p) = last p 0.
Proof.
  destruct p as [|x p] using rev_ind; [reflexivity|]. rewrite rev_app_distr, last_app by discriminate. reflexivity.
Qed.
Lemma last_rev (p : list Z) : last (rev p) 0 = hd 0 p.
Proof. rewrite <- (rev_involutive p) at 2. rewrite hd_rev. reflexivity. Qed.
Lemma rev_nil (p : list Z) : p <> [] -> rev p <> [].
Proof. intros H E. apply H. rewrite <- (rev_involutive p), E. reflexivity. Qed.

Section Cost.
  Context (d : Z -> Z -> Z).

  Lemma path_cost_app p q : p <> [] -> q <> [] -> path_cost d (p ++ q) = path_cost d p + d (last p 0) (hd 0 q) + path_cost d q.
  Proof using.
    intros Hp Hq. induction p as [|x p IH]; [congruence|]. destruct p as [|y p].
    - cbn [app]. destruct q as [|z q]; [congruence|]. cbn [path_cost last hd]. lia.
    - change ((x :: y :: p) ++ q) with (x :: y :: (p ++ q)). change (y :: (p ++ q)) with ((y :: p) ++ q). 
      change (path_cost d (x :: (y :: p) ++ q)) with (d x y + path_cost d ((y :: p) ++ q)). rewrite IH by discriminate. change (path_cost d (x :: y :: p)) with (d x y + path_cost d (y :: p)). change (last (x :: y :: p) 0) with (last (y :: p) 0). lia.
  Qed.

  Lemma tour_cost_rotate p q : tour_cost d (p ++ q) = tour_cost d (q ++ p).
  Proof using.
    destruct p as [|x p]; [rewrite app_nil_r; reflexivity|]. destruct q as [|y q]; [rewrite app_nil_r; reflexivity|].
    unfold tour_cost. rewrite !path_cost_app, !last_app, !hd_app by discriminate. lia.
  Qed.

  Lemma path_cost_rev p : (forall x y, In x p -> In y p -> d x y = d y x) -> path_cost d (rev p) = path_cost d p.
  Proof using.
    induction p as [|x p IH]; intros S; [reflexivity|]. cbn [rev]. destruct p as [|y p]; [reflexivity|].
    rewrite path_cost_app by (try discriminate; apply rev_nil; discriminate). rewrite IH by (intros u v Hu Hv; apply S; right; assumption). rewrite last_rev. cbn [hd path_cost]. rewrite (S y x) by (cbn; auto). destruct p; lia.
  Qed.

  Lemma tour_cost_rev p : (forall x y, In x p -> In y p -> d x y = d y x) -> tour_cost d (rev p) = tour_cost d p.
  Proof using.
    intros S. unfold tour_cost. rewrite path_cost_rev by exact S. rewrite last_rev, hd_rev. destruct p as [|x p]; [reflexivity|]. rewrite (S (hd 0 (x :: p)) (last (x :: p) 0)); [reflexivity|left; reflexivity|].
    destruct (exists_last (l := x :: p)) as (l & y & E); [discriminate|]. rewrite E. rewrite last_app by discriminate. apply in_app_iff. right. left. reflexivity.
  Qed.

  (** Exchanging two edges: [A ++ B ++ C] becomes [A ++ rev B ++ C]; the edge after C leads back to A. *)
  Lemma exchange A B C : (forall x y, In x B -> In y B -> d x y = d y x) -> A <> [] -> B <> [] ->
    tour_cost d (A ++ rev B ++ C) = tour_cost d (A ++ B ++ C) -
      (d (last A 0) (hd 0 B) + d (last B 0) (hd 0 (C ++ A)) - d (hd 0 B) (hd 0 (C ++ A)) - d (last A 0) (last B 0)).
  Proof using.
    intros S HA HB. assert (HR := rev_nil B HB). destruct C as [|c C].
    - rewrite !app_nil_r. unfold tour_cost. rewrite !path_cost_app by assumption. rewrite !last_app, !hd_app by assumption. rewrite path_cost_rev, last_rev, hd_rev by exact S. cbn [app]. lia.
    - unfold tour_cost. rewrite !(path_cost_app A), !(path_cost_app _ (c :: C)) by (try assumption; try discriminate; intros E; apply app_eq_nil in E as [_ E]; discriminate).
      rewrite !last_app by (try discriminate; intros E; apply app_eq_nil in E as [_ E]; discriminate). rewrite !hd_app by (assumption || discriminate). rewrite path_cost_rev, last_rev, hd_rev by exact S. cbn [hd]. lia.
  Qed.

  Lemma cost_lower B p : (forall x y, In x p -> In y p -> - B <= d x y) -> 0 <= B -> p <> [] -> - (Z.of_nat (length p) * B) <= tour_cost d p.
  Proof using.
    intros H HB Hp. destruct p as [|x p]; [congruence|]. unfold tour_cost.
    assert (P : forall q, incl q (x :: p) -> - (Z.of_nat (length q - 1) * B) <= path_cost d q).
    { induction q as [|u q IH]; intros I; [cbn; lia|]. destruct q as [|v q]; [cbn; lia|]. change (path_cost d (u :: v :: q)) with (d u v + path_cost d (v :: q)). assert (I1 := H u v (I u (or_introl eq_refl)) (I v (or_intror (or_introl eq_refl)))).
      assert (I2 := IH (fun z Hz => I z (or_intror Hz))). cbn [length] in *. replace (Z.of_nat (S (S (length q)) - 1)) with (Z.of_nat (S (length q) - 1) + 1) by lia. rewrite Z.mul_add_distr_r. lia. }
    specialize (P (x :: p) (fun z Hz => Hz)). assert (Q : - B <= d (last (x :: p) 0) (hd 0 (x :: p))).
    { apply H; [|left; reflexivity]. destruct (exists_last (l := x :: p)) as (l & y & E); [discriminate|]. rewrite E, last_app by discriminate. apply in_app_iff. right. left. reflexivity. }
    cbn [length] in *. replace (Z.of_nat (S (length p))) with (Z.of_nat (S (length p) - 1) + 1) by lia. rewrite Z.mul_add_distr_r. lia.
  Qed.
End Cost.
