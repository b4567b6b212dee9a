(* Isometries of the coordinates are orthogonal matrices; normalisation of the start vector. *)
From Verif Require Import Base Scalar Kpm KpmSpec KpmVec KpmCheb RSum Cplx Lanczos TridiagProofs LanczosProofs.
From Coq Require Import Reals Lra FunctionalExtensionality.
Local Open Scope R_scope.

Section Iso.
  Variables (n : nat) (G Gi : (nat -> R) -> nat -> R).
  Hypothesis Iso : isometry n G Gi.
  Definition omat (i j : nat) : R := G (unit_vec j) i.

  Lemma G_zero : forall i, G (fun _ => 0) i = 0.
  Proof.
    intros i. pose proof (iso_lin _ _ _ Iso 1 (fun _ => 0) (fun _ => 0)) as H. assert (E : (fun i : nat => 1 * 0 + 0) = (fun _ => 0)) by (apply functional_extensionality; intros; ring).
    cbn beta in H. rewrite E in H. apply (f_equal (fun f => f i)) in H. lra.
  Qed.
  Lemma G_sum : forall x k i, G (fun l => rsum (fun j => x j * unit_vec j l) k) i = rsum (fun j => omat i j * x j) k.
  Proof.
    intros x k i. induction k as [|k IH]; cbn [rsum]; [apply G_zero|].
    replace (fun l => rsum (fun j => x j * unit_vec j l) k + x k * unit_vec k l) with (fun l => x k * unit_vec k l + rsum (fun j => x j * unit_vec j l) k)
      by (apply functional_extensionality; intros; ring).
    rewrite (iso_lin _ _ _ Iso). rewrite IH. unfold omat. ring.
  Qed.
  Lemma trunc : forall x l, (l < n)%nat -> rsum (fun j => x j * unit_vec j l) n = x l.
  Proof.
    intros x l H. rewrite (rsum_ext _ (fun j => if (j =? l)%nat then x l else 0)).
    - rewrite rsum_change by exact H. rewrite rsum_const. ring.
    - intros j _. unfold unit_vec. rewrite Nat.eqb_sym. destruct (Nat.eqb_spec j l); [subst; ring|ring].
  Qed.
  (** columns are orthonormal *)
  Lemma omat_orth : forall i j, (i < n)%nat -> (j < n)%nat -> rsum (fun k => omat k i * omat k j) n = if (i =? j)%nat then 1 else 0.
  Proof.
    intros i j Hi Hj. destruct (Nat.eqb_spec i j) as [<-|N].
    - rewrite <- (unit_nrm n i Hi), <- (iso_nrm _ _ _ Iso). unfold nrm, omat. apply rsum_ext. intros; ring.
    - pose proof (iso_nrm _ _ _ Iso (fun l => 1 * unit_vec i l + unit_vec j l)) as H. rewrite (iso_lin _ _ _ Iso) in H.
      assert (E : nrm n (fun l => 1 * unit_vec i l + unit_vec j l) = 2).
      { unfold nrm. rewrite (rsum_ext _ (fun l => unit_vec i l ^ 2 + unit_vec j l ^ 2)).
        - rewrite rsum_add. fold (nrm n (unit_vec i)) (nrm n (unit_vec j)). rewrite !unit_nrm by auto. ring.
        - intros l _. unfold unit_vec. destruct (Nat.eqb_spec l i), (Nat.eqb_spec l j); subst; try lia; ring. }
      rewrite E in H. unfold nrm in H.
      rewrite (rsum_ext _ (fun l => (G (unit_vec i) l ^ 2 + G (unit_vec j) l ^ 2) + 2 * (omat l i * omat l j))) in H by (intros; unfold omat; ring).
      rewrite !rsum_add, rsum_scal in H. fold (nrm n (G (unit_vec i))) (nrm n (G (unit_vec j))) in H. rewrite !(iso_nrm _ _ _ Iso), !unit_nrm in H by auto. lra.
  Qed.
End Iso.

Lemma near_matrix : forall n q q' delta, near_form n q q' delta ->
  (forall x y, (forall i, (i < n)%nat -> x i = y i) -> q x = q y) -> (forall x y, (forall i, (i < n)%nat -> x i = y i) -> q' x = q' y) ->
  exists O : nat -> nat -> R, (forall i j, (i < n)%nat -> (j < n)%nat -> rsum (fun k => O k i * O k j) n = if (i =? j)%nat then 1 else 0) /\
    forall x, Rabs (q' x - q (fun i => rsum (fun j => O i j * x j) n)) <= delta * nrm n x.
Proof.
  intros n q q' delta (G & Gi & Iso & H) E E'. exists (omat G). split; [intros; eapply omat_orth; eauto|].
  intros x. specialize (H (fun l => rsum (fun j => x j * unit_vec j l) n)).
  rewrite (E' _ x) in H by (intros; apply trunc; auto).
  rewrite (E _ (fun i => rsum (fun j => omat G i j * x j) n)) in H by (intros; eapply G_sum; eauto).
  replace (nrm n (fun l => rsum (fun j => x j * unit_vec j l) n)) with (nrm n x) in H; [exact H|].
  unfold nrm. apply rsum_ext. intros i Hi. rewrite trunc by exact Hi. reflexivity.
Qed.

(** The start vector *)
Lemma fold_abs2 : forall l, fold_right Rplus 0 (map abs2 l) = crip (length l) (vec l) (vec l).
Proof.
  intros l. rewrite crip_sum. induction l as [|x l IH]; [reflexivity|]. cbn [map fold_right length]. rewrite IH, rsum_S_l. unfold abs2, vec. cbn. reflexivity.
Qed.
Lemma crip_positive : forall l, (exists x, In x l /\ x <> @k0 CX) -> 0 < crip (length l) (vec l) (vec l).
Proof.
  intros l (x & Hx & N). rewrite <- fold_abs2. induction l as [|y l IH]; [destruct Hx|]. cbn [map fold_right].
  assert (P : 0 <= fold_right Rplus 0 (map abs2 l)) by (rewrite fold_abs2; apply crip_pos). pose proof (abs2_nonneg y).
  destruct Hx as [->|Hx]; [|specialize (IH Hx); lra].
  assert (abs2 x <> 0). { intros E. apply N. destruct x as [a b]. unfold abs2 in E. cbn in E. assert (a = 0) by nra. assert (b = 0) by nra. subst. reflexivity. }
  lra.
Qed.
Lemma normalize_ok : forall l, (exists x, In x l /\ x <> @k0 CX) -> exists f, 0 < f /\ f * f * crip (length l) (vec l) (vec l) = 1 /\
  normalize l = map (fun x => kmul (re f) x) l.
Proof.
  intros l H. pose proof (crip_positive l H) as P. unfold normalize. rewrite fold_abs2. exists (1 / sqrt (crip (length l) (vec l) (vec l))).
  assert (S : 0 < sqrt (crip (length l) (vec l) (vec l))) by (apply sqrt_lt_R0; exact P).
  assert (Q : sqrt (crip (length l) (vec l) (vec l)) * sqrt (crip (length l) (vec l) (vec l)) = crip (length l) (vec l) (vec l)) by (apply sqrt_sqrt; lra).
  split; [|split].
  - apply Rdiv_lt_0_compat; lra.
  - set (c := crip _ _ _) in *. set (s := sqrt c) in *. replace (1 / s * (1 / s) * c) with (c / (s * s)) by (field; lra). rewrite Q. field. lra.
  - unfold ltb. destruct (Rlt_dec 0 _); [reflexivity|lra].
Qed.
