(* Bilayer graphene: accepted calls and matrix elements. *)
From Coq Require Import Reals Lra Lia ZArith.
From Verif Require Import Base Scalar Foundation Lattice FoundationSpec Hamiltonian BulkSpec Materials MaterialsSpec MaterialsProofs GrapheneProofs.

Section Bi.
  Variable K : scalar.
  Add Ring Kbi : (k_ring K).
  Variable oo : vec3 -> bool.
  Variable order : list (Lattice.family K) -> list (Lattice.family K).

  Definition bi_fams (gamma3 gamma4 : bool) (g0 g1 g3 g4 : K) : list (Lattice.family K) :=
    [Fam (Nm 0) (single g0) 0 [Term (I3 0 0 0) 0 1; Term (I3 0 (-1) 0) 0 1; Term (I3 (-1) 0 0) 0 1; Term (I3 0 0 0) 2 3; Term (I3 0 (-1) 0) 2 3; Term (I3 (-1) 0 0) 2 3];
     Fam (Nm 1) (single g1) 1 [Term (I3 0 0 0) 1 2];
     Fam (Nm 2) (single g3) 2 (if gamma3 then [Term (I3 0 1 0) 3 0; Term (I3 1 0 0) 3 0; Term (I3 1 1 0) 3 0] else []);
     Fam (Nm 3) (single g4) 3 (if gamma4 then [Term (I3 0 0 0) 2 0; Term (I3 0 1 0) 2 0; Term (I3 1 0 0) 2 0] else [])].
  Lemma bi_run : forall gamma3 gamma4 on1 on2 on3 on4 g0 g1 g3 g4,
    real_energy on1 -> real_energy on2 -> real_energy on3 -> real_energy on4 ->
    run oo order (mt_calls (bilayer gamma3 gamma4 on1 on2 on3 on4 g0 g1 g3 g4)) = Some (Lat
      [Sub (Nm 0) (0, - g_acc / 2, 0)%R (hermitian_view (single on1)) 0 0; Sub (Nm 1) (0, g_acc / 2, 0)%R (hermitian_view (single on2)) 1 1;
       Sub (Nm 2) (0, g_acc / 2, - g_c0)%R (hermitian_view (single on3)) 2 2; Sub (Nm 3) (0, 3 * g_acc / 2, - g_c0)%R (hermitian_view (single on4)) 3 3]
      (bi_fams gamma3 gamma4 g0 g1 g3 g4) None 2).
  Proof.
    intros gamma3 gamma4 on1 on2 on3 on4 g0 g1 g3 g4 R1 R2 R3 R4. unfold bilayer, mt_calls. rewrite run_app.
    generalize (0, - g_acc / 2, 0)%R as pA. generalize (0, g_acc / 2, 0)%R as pB. generalize (0, g_acc / 2, - g_c0)%R as pC. generalize (0, 3 * g_acc / 2, - g_c0)%R as pD. intros pD pC pB pA.
    unfold run, subs. cbn [map fold_left fst snd].
    rewrite (run_sub _ _ oo order (Nm 0) pA on1 new_lattice 0 R1) by reflexivity.
    erewrite run_sub; [|exact R2|reflexivity]. erewrite run_sub; [|exact R3|reflexivity]. erewrite run_sub; [|exact R4|reflexivity].
    unfold bi_fams. destruct gamma3, gamma4; reflexivity.
  Qed.

  (** The element as a function of the difference of the cells, in the basis of [monolayer]. *)
  Definition nn3b := [(1, -1); (0, -1); (1, -2)]%Z.
  Definition bi_up (gamma3 gamma4 : bool) (g0 g1 g3 g4 : K) (a b : nat) (p q : Z) : K :=
    match a, b with
    | 0, 1 | 2, 3 => if in2 nn1 p q then g0 else k0
    | 1, 2 => if in2 [(0, 0)]%Z p q then g1 else k0
    | 0, 3 => if gamma3 && in2 nn3b p q then g3 else k0
    | 0, 2 => if gamma4 && in2 nn1 p q then g4 else k0
    | _, _ => k0
    end%nat.
  Definition bi_el gamma3 gamma4 g0 g1 g3 g4 (a b : nat) (p q : Z) : K :=
    if (a <? b)%nat then bi_up gamma3 gamma4 g0 g1 g3 g4 a b p q else bi_up gamma3 gamma4 g0 g1 g3 g4 b a (- p) (- q).
  Local Open Scope k_scope.
  Ltac alleq := repeat match goal with |- context [(?a =? ?b)%Z] => destruct (Z.eqb_spec a b) end.
  Lemma bi_bulk : forall gamma3 gamma4 (g0 g1 g3 g4 : K) x y, real_energy g0 -> real_energy g1 -> real_energy g3 -> real_energy g4 -> site2 4 x -> site2 4 y ->
    bulk complex_type (bi_fams gamma3 gamma4 g0 g1 g3 g4) x 0 y 0 =
      let p := (ix (fst y) - ix (fst x))%Z in let q := (iy (fst y) - iy (fst x))%Z in
      bi_el gamma3 gamma4 g0 g1 g3 g4 (snd x) (snd y) (- q) (p + q).
  Proof.
    intros gamma3 gamma4 g0 g1 g3 g4 [c a] [d b] R0 R1 R3 R4 [Zx Hx] [Zy Hy]. rewrite bulk_goes. cbn [fst snd] in *. rewrite Zx, Zy. cbn [Z.sub Z.opp Z.add].
    set (p := (ix d - ix c)%Z). set (q := (iy d - iy c)%Z). cbv zeta. unfold bi_el, bi_up, sum_goes, bi_fams, goes, in2, nn1, nn3b.
    destruct a as [|[|[|[|a]]]]; [| | | |lia]; destruct b as [|[|[|[|b]]]]; try lia; destruct gamma3, gamma4; cbn -[Z.eqb Z.sub Z.opp Z.add Z.mul];
    rewrite ?kadd_0_r, ?kadd_0_l, ?kconj_0; try ring;
    rewrite ?Bool.andb_true_r; cbn [Z.opp Z.eqb]; rewrite ?Bool.andb_true_r;
    alleq; try lia; cbn; rewrite ?kadd_0_r, ?kadd_0_l, ?kconj_add, ?kconj_0, ?R0, ?R1, ?R3, ?R4; ring.
  Qed.
End Bi.

Local Open Scope R_scope.
(** From A1 to B2, in the plane. *)
Definition d_AB2 (p q : Z) : R :=
  let X := g_a * (IZR p + IZR q / 2) in let Y := g_a / 2 * sqrt 3 * IZR q + 2 * g_acc in X * X + Y * Y.
Lemma near_AB2 : forall p q, d_AB2 p q <= 16/100 * (16/100) -> (-3 <= q <= 0)%Z /\ (-2 < p < 3)%Z.
Proof.
  intros p q H. unfold d_AB2 in H. pose proof sqrt3_lo as L. pose proof sqrt3_hi as U.
  set (X := g_a * (IZR p + IZR q / 2)) in *. set (Y := g_a / 2 * sqrt 3 * IZR q + 2 * g_acc) in *.
  assert (HX : X * X <= 16/100 * (16/100)) by nra. assert (HY : Y * Y <= 16/100 * (16/100)) by nra.
  apply sq_bound in HX; [|lra]. apply sq_bound in HY; [|lra].
  assert (Q : -3 < IZR q < 0) by (unfold Y, g_a, g_acc in HY; split; nra).
  destruct (int_range q (-3) 0) as [? ?]; [lra|lra|].
  assert (Q' : -2 <= IZR q <= -1) by (split; apply IZR_le; lia).
  assert (P : -2 < IZR p < 3) by (unfold X, g_a in HX; split; lra).
  destruct (int_range p (-2) 3) as [? ?]; [lra|lra|]. lia.
Qed.
Lemma shells_AB2 : forall p q,
  (in2 nn3b p q = true /\ 1419/10000 * (1419/10000) < d_AB2 p q < 1421/10000 * (1421/10000)) \/
  (in2 nn3b p q = false /\ 16/100 * (16/100) < d_AB2 p q).
Proof.
  intros p q. pose proof sqrt3_sq as S. pose proof sqrt3_lo as L. pose proof sqrt3_hi as U.
  destruct (Rle_dec (d_AB2 p q) (16/100 * (16/100))) as [H|H].
  - destruct (near_AB2 p q H) as [Q P]. unfold d_AB2, g_a, g_acc in *.
    cases_int q (-3)%Z 0%Z; cases_int p (-1)%Z 2%Z;
      first [ left; split; [reflexivity|]; split; nra
            | exfalso; nra ].
  - right. split; [|lra]. apply Bool.not_true_is_false. intros C. apply H. unfold in2, nn3b in C. cbn [app existsb fst snd] in C.
    rewrite !Bool.orb_true_iff, !Bool.andb_true_iff, !Z.eqb_eq in C. unfold d_AB2, g_a, g_acc.
    destruct C as [[-> ->]|[[-> ->]|[[-> ->]|C]]]; try discriminate; nra.
Qed.
