(* Band folding: a stationary state with a long period is a sum of states with a shorter one (C103). *)
From Coq Require Import Reals Lra Lia.
From Verif Require Import Base Rle Blocks Scalar Cplx Spectral MagneticProofs Foundation FoundationSpec Lattice LatticeSpec Symmetry SymmetrySpec RandomProofs SpectralTheorem CrystalSpec CrystalProofs CrystalWaves.
Local Open Scope R_scope.
Add Ring CXfold : (k_ring CX).

(** ** Roots of one *)
Lemma cos_not_1 : forall t, 0 < t < 2 * PI -> cos t <> 1.
Proof.
  intros t H E. replace t with (2 * (t / 2)) in E by field. rewrite cos_2a_sin in E. assert (S : 0 < sin (t / 2)) by (apply sin_gt_0; lra). nra.
Qed.
Lemma expi_turn : forall n : Z, expi (2 * PI * IZR n) = k1.
Proof.
  intros n. assert (P : forall m : nat, expi (2 * PI * INR m) = k1).
  { intros m. unfold expi. replace (2 * PI * INR m) with (0 + 2 * INR m * PI) by ring. rewrite cos_period, sin_period, cos_0, sin_0. reflexivity. }
  destruct (Z_le_gt_dec 0 n) as [H|H].
  - rewrite <- (Z2Nat.id n) by lia. rewrite <- INR_IZR_INZ. apply P.
  - replace (2 * PI * IZR n) with (- (2 * PI * INR (Z.to_nat (- n)))) by (rewrite INR_IZR_INZ, Z2Nat.id by lia; rewrite opp_IZR; ring).
    rewrite expi_neg, P. apply kconj_1.
Qed.
Lemma roots_sum : forall c j, (0 < j < c)%nat -> ksum (fun g => expi (2 * PI * (INR g * INR j / INR c))) (seq 0 c) = k0.
Proof.
  intros c j H. assert (C : 0 < INR c) by (apply lt_0_INR; lia). assert (J : 0 < INR j < INR c) by (split; [apply lt_0_INR|apply lt_INR]; lia).
  set (t := 2 * PI * (INR j / INR c)). pose proof PI_RGT_0 as PP.
  rewrite (ksum_ext CX _ (fun g => mk (cos (INR g * t)) (sin (INR g * t)))).
  2:{ intros g _. unfold expi, t. replace (2 * PI * (INR g * INR j / INR c)) with (INR g * (2 * PI * (INR j / INR c))) by (field; lra). reflexivity. }
  pose proof (geometric t c) as G. replace (INR c * t) with (2 * PI * IZR (Z.of_nat j)) in G by (unfold t; rewrite <- INR_IZR_INZ; field; lra).
  pose proof (expi_turn (Z.of_nat j)) as TT. unfold expi in TT. rewrite TT in G.
  assert (Z : ksub (mk (cos t) (sin t)) k1 <> k0).
  { intros Q. apply (cos_not_1 t); [|apply (f_equal fst) in Q; cbn in Q; lra].
    assert (0 < INR j / INR c) by (apply Rdiv_lt_0_compat; lra).
    assert (INR j / INR c < 1). { apply (Rmult_lt_reg_r (INR c)); [lra|]. unfold Rdiv. rewrite Rmult_assoc, Rinv_l by lra. lra. }
    unfold t. nra. }
  set (w := ksub (mk (cos t) (sin t)) k1) in *. set (S0 := ksum _ _) in *.
  transitivity (kmul (cinv w) (kmul w S0)); [transitivity (kmul (kmul (cinv w) w) S0); [rewrite cinv_l by exact Z; ring|ring]|]. rewrite G. ring.
Qed.

(** ** States on a group of translations *)
Section Fold.
  Context {P : Type}.
  Variable subs : list (sublattice CX P).
  Variable fams : list (family CX).
  Variable here : idx3 * nat -> Prop.
  Variable E : CX.
  Local Open Scope k_scope.
  Notation W := (wave CX).
  Record state_on (G : idx3 -> Prop) (ph : idx3 -> CX) (psi : W) : Prop := {
    so_repeats : forall x T q, G T -> psi (moved_site x T) q = kconj (ph T) * psi x q;
    so_nonzero : exists x p, here x /\ (p < orbitals subs x)%nat /\ psi x p <> k0;
    so_outside : forall x p, ~ here x -> psi x p = k0;
    so_equation : forall x p, here x -> (p < orbitals subs x)%nat -> crystal subs fams psi x p = E * psi x p
  }.
  Lemma state_bloch : forall s ph psi, ph zero3 = k1 -> state_on (some_periods s) ph psi <-> bloch_state subs fams s ph here E psi.
  Proof using.
    intros s ph psi P0. split; intros [H1 H2 H3 H4]; split; auto.
    - intros x T q WT. apply H1. right. exact WT.
    - intros x T q [->|WT]; [|apply H1; exact WT]. unfold moved_site. rewrite add_zero3, <- surjective_pairing, P0, kconj_1. ring.
  Qed.
  Lemma moved_moved : forall x S T, moved_site (moved_site x S) T = moved_site x (shifted_cell S T).
  Proof using. intros x S T. unfold moved_site. cbn [fst snd]. rewrite add_assoc. reflexivity. Qed.

  (** A finite combination of translated waves *)
  Definition combine (c : nat) (a : nat -> CX) (e : nat -> idx3) (psi : W) : W := fun x q => ksum (fun j => a j * psi (moved_site x (e j)) q) (seq 0 c).
  Lemma crystal_combine : forall c a e psi x p, crystal subs fams (combine c a e psi) x p = ksum (fun j => a j * crystal subs fams psi (moved_site x (e j)) p) (seq 0 c).
  Proof using.
    intros c a e psi x p. unfold crystal.
    transitivity (ksum (fun j => a j * onsite_action subs psi (moved_site x (e j)) p) (seq 0 c)
      + ksum (fun f => ksum (fun t => ksum (fun j => a j * (forward_action (fm_energy f) t psi (moved_site x (e j)) p + backward_action (fm_energy f) t psi (moved_site x (e j)) p)) (seq 0 c)) (fm_terms f)) fams).
    - f_equal.
      + unfold onsite_action. transitivity (ksum (fun s => ksum (fun j => a j * (if (sb_uid s =? snd x)%nat then ksum (fun q => m_at (sb_energy s) p q * psi (moved_site x (e j)) q) (seq 0 (m_rows (sb_energy s))) else k0)) (seq 0 c)) subs).
        * apply ksum_ext. intros s _. destruct (_ =? _)%nat; [|symmetry; apply ksum_0; intros; ring].
          unfold combine. transitivity (ksum (fun q => ksum (fun j => a j * (m_at (sb_energy s) p q * psi (moved_site x (e j)) q)) (seq 0 c)) (seq 0 (m_rows (sb_energy s)))).
          -- apply ksum_ext. intros q _. rewrite <- ksum_mul_l. apply ksum_ext. intros j _. ring.
          -- rewrite ksum_swap. apply ksum_ext. intros j _. apply ksum_mul_l.
        * rewrite ksum_swap. apply ksum_ext. intros j _. rewrite ksum_mul_l. reflexivity.
      + apply ksum_ext. intros f _. apply ksum_ext. intros t _.
        rewrite (ksum_ext CX (fun j => a j * _) (fun j => a j * forward_action (fm_energy f) t psi (moved_site x (e j)) p + a j * backward_action (fm_energy f) t psi (moved_site x (e j)) p)) by (intros; ring).
        rewrite ksum_add. f_equal.
        * unfold forward_action, combine. cbn [moved_site snd fst]. destruct (_ =? _)%nat; [|symmetry; apply ksum_0; intros; ring].
          transitivity (ksum (fun q => ksum (fun j => a j * (m_at (fm_energy f) p q * psi (shifted_cell (shifted_cell (fst x) (e j)) (t_rel t), t_to t) q)) (seq 0 c)) (seq 0 (m_cols (fm_energy f)))).
          -- apply ksum_ext. intros q _. rewrite <- ksum_mul_l. apply ksum_ext. intros j _. rewrite (add_swap (fst x) (e j)). unfold moved_site. cbn [fst snd]. ring.
          -- rewrite ksum_swap. apply ksum_ext. intros j _. apply ksum_mul_l.
        * unfold backward_action, combine. cbn [moved_site snd fst]. destruct (_ =? _)%nat; [|symmetry; apply ksum_0; intros; ring].
          transitivity (ksum (fun q => ksum (fun j => a j * (kconj (m_at (fm_energy f) q p) * psi (shifted_cell (shifted_cell (fst x) (e j)) (opposite (t_rel t)), t_from t) q)) (seq 0 c)) (seq 0 (m_rows (fm_energy f)))).
          -- apply ksum_ext. intros q _. rewrite <- ksum_mul_l. apply ksum_ext. intros j _. rewrite (add_swap (fst x) (e j)). unfold moved_site. cbn [fst snd]. ring.
          -- rewrite ksum_swap. apply ksum_ext. intros j _. apply ksum_mul_l.
    - rewrite (ksum_ext CX (fun j => a j * (onsite_action subs psi (moved_site x (e j)) p + _))
        (fun j => a j * onsite_action subs psi (moved_site x (e j)) p + a j * ksum (fun f => ksum (fun t => forward_action (fm_energy f) t psi (moved_site x (e j)) p + backward_action (fm_energy f) t psi (moved_site x (e j)) p) (fm_terms f)) fams)) by (intros; ring).
      rewrite ksum_add. f_equal. symmetry.
      transitivity (ksum (fun j => ksum (fun f => ksum (fun t => a j * (forward_action (fm_energy f) t psi (moved_site x (e j)) p + backward_action (fm_energy f) t psi (moved_site x (e j)) p)) (fm_terms f)) fams) (seq 0 c)).
      + apply ksum_ext. intros j _. rewrite <- ksum_mul_l. apply ksum_ext. intros f _. rewrite <- ksum_mul_l. reflexivity.
      + rewrite ksum_swap. apply ksum_ext. intros f _. apply ksum_swap.
  Qed.

  (** ** One direction *)
  Definition times (k : Z) (e : idx3) : idx3 := I3 (k * ix e) (k * iy e) (k * iz e).
  (** The character that turns by [g] of [c] parts for each step of length [p] along the coordinate [w] *)
  Definition twist (ph : idx3 -> CX) (w : idx3 -> Z) (L : Z) (g : nat) (T : idx3) : CX := ph T * expi (2 * PI * (INR g * IZR (w T) / IZR L))%R.
  Lemma phases_twist : forall ph w L g, phases ph -> (forall S T, w (shifted_cell S T) = (w S + w T)%Z) -> w zero3 = 0%Z -> (forall T, w (opposite T) = (- w T)%Z) -> phases (twist ph w L g).
  Proof using.
    intros ph w L g (P0 & PA & PC) WA W0 WO. unfold twist. split; [|split].
    - rewrite P0, W0. replace (2 * PI * (INR g * 0 / IZR L))%R with 0%R by (unfold Rdiv; ring). rewrite expi_0. ring.
    - intros S T. rewrite PA, WA, plus_IZR.
      replace (2 * PI * (INR g * (IZR (w S) + IZR (w T)) / IZR L))%R with (2 * PI * (INR g * IZR (w S) / IZR L) + 2 * PI * (INR g * IZR (w T) / IZR L))%R by (unfold Rdiv; ring).
      rewrite <- expi_add. ring.
    - intros T. rewrite kconj_mul, PC, <- expi_neg, WO, opp_IZR. f_equal. f_equal. unfold Rdiv. ring.
  Qed.

  Lemma step : forall (G : idx3 -> Prop) ph psi (e : idx3) (c : nat) (w : idx3 -> Z) (p : Z),
    phases ph -> (forall S T, w (shifted_cell S T) = (w S + w T)%Z) -> w zero3 = 0%Z -> (forall T, w (opposite T) = (- w T)%Z) ->
    w e = p -> (0 < c)%nat -> (0 < p)%Z \/ c = 1%nat ->
    (forall T, G T -> exists k, w T = (k * (Z.of_nat c * p))%Z) -> G (times (Z.of_nat c) e) ->
    (forall x T, here x -> here (moved_site x (times T e))) ->
    state_on G ph psi -> exists g psi', (g < c)%nat /\ state_on (fun T => exists T0 k, G T0 /\ T = shifted_cell T0 (times k e)) (twist ph w (Z.of_nat c * p) g) psi'.
  Proof using.
    intros G ph psi e c w p PH WA W0 WO We Hc Hp HG Gc HH [S1 (x0 & p0 & X1 & X2 & X3) S3 S4].
    set (L := (Z.of_nat c * p)%Z). set (ch := fun g => twist ph w L g).
    assert (PC : forall g, phases (ch g)) by (intros g; apply phases_twist; assumption).
    assert (CG : forall g T, G T -> ch g T = ph T).
    { intros g T HT. unfold ch, twist. destruct (HG T HT) as (k & ->). fold L. destruct (Z.eq_dec L 0) as [Z|NZ].
      - rewrite Z. replace (2 * PI * (INR g * IZR (k * 0) / 0))%R with 0%R by (rewrite Z.mul_0_r; unfold Rdiv; ring). rewrite expi_0. ring.
      - replace (2 * PI * (INR g * IZR (k * L) / IZR L))%R with (2 * PI * IZR (Z.of_nat g * k))%R; [rewrite expi_turn; ring|].
        rewrite !mult_IZR, <- INR_IZR_INZ. field. apply not_0_IZR. exact NZ. }
    assert (WT : forall k, w (times k e) = (k * p)%Z).
    { assert (WN : forall n, w (times (Z.of_nat n) e) = (Z.of_nat n * p)%Z).
      { induction n as [|n IH]; [unfold times; cbn; exact W0|].
        replace (times (Z.of_nat (S n)) e) with (shifted_cell (times (Z.of_nat n) e) e) by (unfold times, shifted_cell; cbn [ix iy iz]; f_equal; lia). rewrite WA, IH, We. lia. }
      intros k. destruct (Z_le_gt_dec 0 k) as [H|H]; [rewrite <- (Z2Nat.id k) by lia; apply WN|].
      replace (times k e) with (opposite (times (Z.of_nat (Z.to_nat (- k))) e)) by (unfold times, opposite; rewrite Z2Nat.id by lia; cbn [ix iy iz]; f_equal; lia).
      rewrite WO, WN. lia. }
    set (ps := fun g => combine c (fun j => ch g (times (Z.of_nat j) e)) (fun j => times (Z.of_nat j) e) psi).
    (* the parts add up to the wave *)
    assert (TOT : forall x q, ksum (fun g => ps g x q) (seq 0 c) = re (INR c) * psi x q).
    { intros x q. unfold ps, combine. rewrite ksum_swap.
      rewrite (ksum_ext CX _ (fun j => (ph (times (Z.of_nat j) e) * psi (moved_site x (times (Z.of_nat j) e)) q) * ksum (fun g => expi (2 * PI * (INR g * INR j / INR c))%R) (seq 0 c))).
      2:{ intros j Hj. apply in_seq in Hj. rewrite <- ksum_mul_l. apply ksum_ext. intros g _. unfold ch, twist. rewrite WT. unfold L.
          replace (INR g * IZR (Z.of_nat j * p) / IZR (Z.of_nat c * p))%R with (INR g * INR j / INR c)%R; [ring|].
          assert (C : (INR c <> 0)%R) by (apply not_0_INR; lia). rewrite !mult_IZR, <- !INR_IZR_INZ. destruct Hp as [Hp|Hp].
          - field. split; [apply not_0_IZR; lia|exact C].
          - assert (j = 0%nat) by lia. subst j. cbn [INR]. unfold Rdiv. ring. }
      rewrite (ksum_single CX _ c 0%nat Hc).
      - cbn [INR Z.of_nat]. replace (times 0 e) with zero3 by (unfold times; destruct e; reflexivity). destruct PH as (P0 & _). rewrite P0.
        rewrite (ksum_ext CX _ (fun _ => k1)).
        2:{ intros g _. replace (2 * PI * (INR g * 0 / INR c))%R with 0%R by (unfold Rdiv; ring). apply expi_0. }
        assert (K : ksum (fun _ : nat => k1) (seq 0 c) = re (INR c)).
        { clear. induction c as [|c IH]; [reflexivity|]. rewrite ksum_S, IH, S_INR. unfold re. cbn. unfold cx_add. cbn. f_equal; ring. }
        rewrite K. unfold moved_site. rewrite add_zero3, <- surjective_pairing. ring.
      - intros j Hj Nj. rewrite roots_sum by lia. ring. }
    (* one of them is not zero *)
    assert (EX : exists g, (g < c)%nat /\ ps g x0 p0 <> k0).
    { destruct (existsb (fun g => negb (keqb (ps g x0 p0) k0)) (seq 0 c)) eqn:EB.
      - apply existsb_exists in EB. destruct EB as (g & Hg & NZ). apply in_seq in Hg. exists g. split; [lia|]. intros C. apply (keqb_eq CX) in C. rewrite C in NZ. discriminate NZ.
      - exfalso. apply X3.
        assert (Z : ksum (fun g => ps g x0 p0) (seq 0 c) = k0).
        { apply ksum_0. intros g Hg. destruct (keqb (ps g x0 p0) k0) eqn:K; [apply (keqb_eq CX); exact K|].
          assert (existsb (fun g => negb (keqb (ps g x0 p0) k0)) (seq 0 c) = true) by (apply existsb_exists; exists g; rewrite K; auto). congruence. }
        rewrite TOT in Z. assert (C : (INR c <> 0)%R) by (apply not_0_INR; lia).
        destruct (psi x0 p0) as [u v]. cbn in Z. unfold cx_mul in Z. cbn in Z. apply (f_equal fst) in Z as Z1. apply (f_equal snd) in Z as Z2. cbn [fst snd] in Z1, Z2.
        change (@k0 CX) with (0, 0)%R. f_equal; (apply (Rmult_eq_reg_l (INR c)); [lra|exact C]). }
    destruct EX as (g & Lg & NZ). exists g, (ps g). split; [exact Lg|]. destruct (PC g) as (Q0 & QA & QC).
    assert (UP : forall T, ch g T * kconj (ch g T) = k1) by (intros T; apply (unit_phase CX); apply PC).
    assert (BACK : forall x, here (moved_site x e) -> here x).
    { intros x H. apply (HH _ (-1)%Z) in H. rewrite moved_moved in H. replace (shifted_cell e (times (-1) e)) with zero3 in H by (unfold times, shifted_cell, zero3; cbn [ix iy iz]; f_equal; lia).
      unfold moved_site in H. rewrite add_zero3, <- surjective_pairing in H. exact H. }
    (* one step *)
    assert (ONE : forall x q, ps g (moved_site x e) q = kconj (ch g e) * ps g x q).
    { intros x q. unfold ps, combine. fold (ch g).
      set (h := fun j => ch g (times (Z.of_nat j) e) * psi (moved_site x (times (Z.of_nat j) e)) q).
      assert (H1 : forall j, ch g (times (Z.of_nat j) e) * psi (moved_site (moved_site x e) (times (Z.of_nat j) e)) q = kconj (ch g e) * h (S j)).
      { intros j. unfold h. rewrite moved_moved.
        replace (shifted_cell e (times (Z.of_nat j) e)) with (times (Z.of_nat (S j)) e) by (unfold times, shifted_cell; cbn [ix iy iz]; f_equal; lia).
        replace (times (Z.of_nat (S j)) e) with (shifted_cell (times (Z.of_nat j) e) e) at 2 by (unfold times, shifted_cell; cbn [ix iy iz]; f_equal; lia).
        rewrite QA. transitivity ((ch g e * kconj (ch g e)) * (ch g (times (Z.of_nat j) e) * psi (moved_site x (times (Z.of_nat (S j)) e)) q)); [rewrite UP; ring|ring]. }
      rewrite (ksum_ext CX _ (fun j => kconj (ch g e) * h (S j))) by (intros j _; apply H1). rewrite ksum_mul_l. f_equal.
      change (ksum (fun j => h (S j)) (seq 0 c) = ksum h (seq 0 c)).
      rewrite <- (ksum_map CX S h), seq_shift. destruct c as [|c']; [lia|].
      rewrite seq_S, ksum_app. cbn [seq]. rewrite ksum_cons. change (1 + c')%nat with (S c').
      assert (HL : h (S c') = h 0%nat); [|rewrite !ksum_cons, ksum_nil, HL; ring].
      unfold h. rewrite CG by exact Gc. rewrite S1 by exact Gc. change (Z.of_nat 0) with 0%Z. replace (times 0 e) with zero3 by (unfold times; destruct e; reflexivity).
      rewrite Q0. unfold moved_site. rewrite add_zero3, <- surjective_pairing. pose proof (unit_phase CX ph PH (times (Z.of_nat (S c')) e)) as U0.
      transitivity ((ph (times (Z.of_nat (S c')) e) * kconj (ph (times (Z.of_nat (S c')) e))) * psi x q); [ring|]. rewrite U0. ring. }
    assert (ALL : forall k x q, ps g (moved_site x (times k e)) q = kconj (ch g (times k e)) * ps g x q).
    { assert (NAT : forall n x q, ps g (moved_site x (times (Z.of_nat n) e)) q = kconj (ch g (times (Z.of_nat n) e)) * ps g x q).
      { induction n as [|n IH]; intros x q.
        - cbn [Z.of_nat]. replace (times 0 e) with zero3 by (unfold times; destruct e; reflexivity). unfold moved_site. rewrite add_zero3, <- surjective_pairing, Q0, kconj_1. ring.
        - replace (times (Z.of_nat (S n)) e) with (shifted_cell (times (Z.of_nat n) e) e) by (unfold times, shifted_cell; cbn [ix iy iz]; f_equal; lia).
          rewrite <- moved_moved, ONE, IH, QA, kconj_mul. ring. }
      intros k x q. destruct (Z_le_gt_dec 0 k) as [H|H]; [rewrite <- (Z2Nat.id k) by lia; apply NAT|].
      set (n := Z.to_nat (- k)). assert (EK : k = (- Z.of_nat n)%Z) by (unfold n; rewrite Z2Nat.id by lia; lia).
      pose proof (NAT n (moved_site x (times k e)) q) as Q. rewrite moved_moved in Q.
      replace (shifted_cell (times k e) (times (Z.of_nat n) e)) with zero3 in Q by (rewrite EK; unfold times, shifted_cell, zero3; cbn [ix iy iz]; f_equal; lia).
      unfold moved_site at 1 in Q. rewrite add_zero3, <- surjective_pairing in Q. rewrite Q.
      replace (times k e) with (opposite (times (Z.of_nat n) e)) by (rewrite EK; unfold times, opposite; cbn [ix iy iz]; f_equal; lia).
      rewrite <- QC, kconj_conj. transitivity ((ch g (times (Z.of_nat n) e) * kconj (ch g (times (Z.of_nat n) e))) * ps g (moved_site x (opposite (times (Z.of_nat n) e))) q); [rewrite UP; ring|ring]. }
    split.
    - intros x T q (T0 & k & GT & ->). rewrite <- moved_moved, ALL. fold L. change (twist ph w L g) with (ch g). rewrite QA, kconj_mul.
      transitivity (kconj (ch g (times k e)) * (kconj (ch g T0) * ps g x q)); [|ring]. f_equal. unfold ps, combine. rewrite <- ksum_mul_l. apply ksum_ext. intros j _.
      rewrite (CG g T0 GT). rewrite moved_moved.
      replace (shifted_cell T0 (times (Z.of_nat j) e)) with (shifted_cell (times (Z.of_nat j) e) T0) by (unfold times, shifted_cell; cbn [ix iy iz]; f_equal; lia).
      rewrite <- moved_moved, S1 by exact GT. ring.
    - exists x0, p0. auto.
    - intros x q N. unfold ps, combine. apply ksum_0. intros j _. rewrite S3; [ring|]. intros H. apply N.
      apply (HH _ (- Z.of_nat j)%Z) in H. rewrite moved_moved in H. replace (shifted_cell (times (Z.of_nat j) e) (times (- Z.of_nat j) e)) with zero3 in H by (unfold times, shifted_cell, zero3; cbn [ix iy iz]; f_equal; lia).
      unfold moved_site in H. rewrite add_zero3, <- surjective_pairing in H. exact H.
    - intros x q Hx Hq. unfold ps at 1. rewrite crystal_combine. unfold ps, combine. rewrite <- ksum_mul_l. apply ksum_ext. intros j _.
      rewrite S4; [ring|apply HH; exact Hx|]. unfold orbitals, moved_site in *. cbn [snd]. exact Hq.
  Qed.
End Fold.
