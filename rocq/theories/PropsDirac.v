(* C64: the Dirac point of graphene. *)
From Coq Require Import Reals Lra Lia ZArith Permutation.
From Verif Require Import Base Rle Blocks Scalar Foundation Lattice LatticeSpec FoundationSpec Symmetry SymmetrySpec Hamiltonian HamiltonianSpec SystemBuild
  BulkSpec HamCor BlochTerms Cplx Materials MaterialsSpec MaterialsProofs GrapheneProofs.
Local Open Scope R_scope.

(** ** Specification *)
(** [exp(i k.d)] *)
Definition plane_wave (k d : vec3) : CX := let a := vx k * vx d + vy k * vy d + vz k * vz d in (cos a, sin a).
(** The corners of the Brillouin zone K and K' of a lattice with the vectors (a, 0), (a/2, sqrt 3 a/2). *)
Definition corner_K (a : R) : vec3 := (4 * PI / (3 * a), 0, 0).
Definition corner_K' (a : R) : vec3 := (- (4 * PI / (3 * a)), 0, 0).

Lemma complex_ok : nt_ok (complex_type (R := CX)).
Proof. repeat split; intros; cbn [nt_cast nt_conj complex_type]; [apply kconj_0|apply kconj_add|apply kconj_conj]. Qed.

(** ** Proof *)
Definition third (j : Z) : CX := (cos (IZR j * (2 * (PI / 3))), sin (IZR j * (2 * (PI / 3)))).
Lemma third_0 : third 0 = (1, 0). Proof. unfold third. rewrite Rmult_0_l, cos_0, sin_0. reflexivity. Qed.
Lemma third_1 : third 1 = (-1/2, sqrt 3 / 2).
Proof. unfold third. rewrite Rmult_1_l, cos_2PI3, sin_2PI3. reflexivity. Qed.
Lemma third_m1 : third (-1) = (-1/2, - (sqrt 3 / 2)).
Proof. unfold third. replace (-1 * (2 * (PI / 3))) with (- (2 * (PI / 3))) by ring. rewrite cos_neg, sin_neg, cos_2PI3, sin_2PI3. reflexivity. Qed.
Lemma third_2 : third 2 = third (-1).
Proof. unfold third. replace (2 * (2 * (PI / 3))) with (-1 * (2 * (PI / 3)) + 2 * PI) by field. rewrite cos_plus, sin_plus, cos_2PI, sin_2PI. f_equal; ring. Qed.
Lemma third_m2 : third (-2) = third 1.
Proof. unfold third. replace (-2 * (2 * (PI / 3))) with (1 * (2 * (PI / 3)) - 2 * PI) by field. rewrite cos_minus, sin_minus, cos_2PI, sin_2PI. f_equal; ring. Qed.

Lemma wave_K : forall (sg : Z) p q, (sg = 1 \/ sg = -1)%Z ->
  plane_wave (if (sg =? 1)%Z then corner_K g_a else corner_K' g_a) (corner [(g_a, 0, 0); (g_a / 2, g_a / 2 * sqrt 3, 0)] (I3 p q 0)) = third (sg * (2 * p + q)).
Proof.
  intros sg p q H. unfold plane_wave, third, corner. cbn [nth ix iy iz]. unfold vadd, vscale, v0, vx, vy, vz. 
  rewrite mult_IZR, plus_IZR, mult_IZR. destruct H as [-> | ->]; cbn [Z.eqb Pos.eqb corner_K corner_K' fst snd];
  unfold corner_K, corner_K'; cbn [fst snd]; f_equal; f_equal; unfold g_a; field.
Qed.

Section Terms.
  Variable K : scalar.
  Add Ring Kdr : (k_ring K).
  Local Open Scope k_scope.
  Lemma k_dist : forall a b c : K, a * b + a * c = a * (b + c). Proof. intros; ring. Qed.
  Lemma ts_AB : forall n (t tnn tnnn : K) ph, term_sum complex_type (mono_fams K n t tnn tnnn) ph 0 0 1 0 =
    t * (ph (I3 0 0 0) + ph (I3 (-1) 1 0) + ph (I3 0 1 0)) + (if (3 <=? n)%Z then tnnn * (ph (I3 (-1) 2 0) + ph (I3 (-1) 0 0) + ph (I3 1 0 0)) else k0).
  Proof. intros. unfold term_sum, mono_fams. destruct (2 <=? n)%Z, (3 <=? n)%Z; cbn; unfold opposite; cbn [ix iy iz Z.opp]; ring. Qed.
  Lemma ts_BA : forall n (t tnn tnnn : K) ph, term_sum complex_type (mono_fams K n t tnn tnnn) ph 1 0 0 0 = k0.
  Proof. intros. unfold term_sum, mono_fams. destruct (2 <=? n)%Z, (3 <=? n)%Z; cbn; unfold opposite; cbn [ix iy iz Z.opp]; ring. Qed.
  Lemma ts_same : forall n (t tnn tnnn : K) ph a, (a < 2)%nat -> term_sum complex_type (mono_fams K n t tnn tnnn) ph a 0 a 0 =
    if (2 <=? n)%Z then tnn * (ph (I3 0 1 0) + ph (I3 (-1) 1 0) + ph (I3 (-1) 0 0)) else k0.
  Proof. intros n t tnn tnnn ph a Ha. unfold term_sum, mono_fams. destruct a as [|[|a]]; [| |lia]; destruct (2 <=? n)%Z, (3 <=? n)%Z; cbn; unfold opposite; cbn [ix iy iz Z.opp]; ring. Qed.
End Terms.

Lemma thirds : forall sg, (sg = 1 \/ sg = -1)%Z ->
  kadd (kadd (third (sg * 0)) (third (sg * -1))) (third (sg * 1)) = (k0 : CX) /\
  kadd (kadd (third (sg * 0)) (third (sg * -2))) (third (sg * 2)) = (k0 : CX) /\
  kadd (kadd (kadd (third (sg * 1)) (third (sg * -1))) (third (sg * -2))) (kconj (kadd (kadd (third (sg * 1)) (third (sg * -1))) (third (sg * -2)))) = re (-3).
Proof.
  intros sg H.
  destruct H as [-> | ->]; cbn [Z.mul Pos.mul]; rewrite ?third_2, ?third_m2, ?third_m1, ?third_1, ?third_0; cbn; unfold cx_add, cx_conj, re; cbn [fst snd];
  repeat split; f_equal; field.
Qed.

(** At K and K' the Hamiltonian of the one-cell periodic sheet is diagonal and holds the onsite
    energies as given, whatever the hopping energies and however many shells of neighbours: the
    offset added to the onsite energies cancels the second neighbours exactly. *)
Theorem C64 : forall offset_ok order n (onA onB t tnn tnnn : R) m l subs fams uc reg hreg size s valid fpos cap dflt sg,
  monolayer n (re onA) (re onB) (re t) (re tnn) (re tnnn) = Some m -> run offset_ok order (mt_calls m) = Some l ->
  one_cell_system l subs fams uc reg hreg size s valid fpos cap -> (sg = 1 \/ sg = -1)%Z ->
  exists sys, build_system dflt size uc s (corner (mt_vectors m)) reg hreg fpos valid = Ok sys /\
    forall unshift simple, exists mtx,
      ham_make cap complex_type sys [] [] unshift (plane_wave (if (sg =? 1)%Z then corner_K g_a else corner_K' g_a)) simple = Ok mtx /\
      forall i k x y, site_at size uc valid i x -> site_at size uc valid k y -> (snd x < 2)%nat -> (snd y < 2)%nat ->
        coeff mtx (row_of (hs_subs sys) i 0) (row_of (hs_subs sys) k 0)
        = if (snd x =? snd y)%nat then re (if (snd x =? 0)%nat then onA else onB) else k0.
Proof.
  intros oo order n onA onB t tnn tnnn m l subs fams uc reg hreg size s valid fpos cap dflt sg Em Er OC Hsg.
  assert (RR : forall x, real_energy (re x : CX)) by (intros x; unfold real_energy, re; cbn; unfold cx_conj; cbn; f_equal; ring).
  destruct (mono_run CX oo order n (re onA) (re onB) (re t) (re tnn) (re tnnn) m (RR _) (RR _) (RR _) Em) as (N3 & EV & ER).
  rewrite ER in Er. match type of Er with Some ?a = Some _ => assert (El : a = l) by congruence end. pose proof (run_calls _ _ _ _ _ _ ER) as EC. rewrite El in EC.
  rewrite <- EC in OC.
  destruct (C43_one_cell CX vec3 oo order (mt_calls m) subs fams uc reg hreg size s valid fpos dflt (corner (mt_vectors m)) complex_type cap OC complex_ok) as (sys & ES & HM).
  exists sys. split; [exact ES|]. intros unshift simple.
  set (kk := if (sg =? 1)%Z then corner_K g_a else corner_K' g_a).
  assert (W : forall p q, plane_wave kk (corner (mt_vectors m) (I3 p q 0)) = third (sg * (2 * p + q))) by (intros p q; rewrite EV; apply wave_K; exact Hsg).
  destruct (HM unshift (plane_wave kk) simple) as (mtx & EM & EL).
  { cbn [nt_cast complex_type]. change zero3 with (I3 0 0 0). rewrite W. replace (sg * (2 * 0 + 0))%Z with 0%Z by lia. apply third_0. }
  exists mtx. split; [exact EM|]. intros i k x y Sx Sy Hx Hy.
  assert (SUB : forall a, (a < 2)%nat -> exists sb, In sb (l_subs (calls oo order (mt_calls m))) /\ sb_uid sb = a /\ m_rows (sb_energy sb) = 1%nat /\
     m_at (sb_energy sb) 0 0 = kadd (re (if (a =? 0)%nat then onA else onB)) (if (n <? 2)%Z then k0 else three (re tnn : CX))).
  { intros a Ha. rewrite EC, <- El. cbn [l_subs]. destruct a as [|[|a]]; [| |lia].
    - eexists. split; [left; reflexivity|]. repeat split.
    - eexists. split; [right; left; reflexivity|]. repeat split. }
  destruct (SUB _ Hx) as (sx & X1 & X2 & X3 & X4). destruct (SUB _ Hy) as (sy & Y1 & Y2 & Y3 & Y4).
  rewrite (EL i k x y sx sy Sx Sy X1 X2 Y1 Y2 0%nat 0%nat) by lia. rewrite EC, <- El. cbn [l_fams nt_cast nt_conj complex_type]. rewrite X4.
  destruct (thirds sg Hsg) as (T1 & T2 & T3).
  assert (AB : term_sum complex_type (mono_fams CX n (re t) (re tnn) (re tnnn)) (fun T => plane_wave kk (corner (mt_vectors m) T)) 0 0 1 0 = k0).
  { rewrite ts_AB, !W.
    replace (sg * (2 * 0 + 0))%Z with (sg * 0)%Z by ring. replace (sg * (2 * -1 + 1))%Z with (sg * -1)%Z by ring. replace (sg * (2 * 0 + 1))%Z with (sg * 1)%Z by ring.
    replace (sg * (2 * -1 + 2))%Z with (sg * 0)%Z by ring. replace (sg * (2 * -1 + 0))%Z with (sg * -2)%Z by ring. replace (sg * (2 * 1 + 0))%Z with (sg * 2)%Z by ring.
    rewrite T1, T2. rewrite !kmul_0_r. destruct (3 <=? n)%Z; apply kadd_0_l. }
  destruct (snd x) as [|[|?]] eqn:Eqx; [| |lia]; destruct (snd y) as [|[|?]] eqn:Eqy; try lia; cbn [Nat.eqb].
  2:{ rewrite AB, ts_BA, kconj_0, !kadd_0_l. reflexivity. }
  2:{ rewrite AB, ts_BA, kconj_0, !kadd_0_l. reflexivity. }
  all: rewrite ts_same by lia; rewrite !W; destruct (Z.ltb_spec n 2) as [N2|N2], (Z.leb_spec 2 n) as [M2|M2]; try lia;
    [rewrite kconj_0, !kadd_0_r; reflexivity|].
  all: replace (sg * (2 * 0 + 1))%Z with (sg * 1)%Z by ring; replace (sg * (2 * -1 + 1))%Z with (sg * -1)%Z by ring; replace (sg * (2 * -1 + 0))%Z with (sg * -2)%Z by ring.
  all: rewrite kconj_mul, (RR tnn), k_dist, T3; unfold three, re; cbn; unfold cx_add, cx_mul; cbn [fst snd]; f_equal; ring.
Qed.
Print Assumptions C64.

(** The sheet with three shells of neighbours and a block of one cell is such a system. *)
Lemma mono_cell : forall (K : scalar) n pA pB (eA eB : mat K) t tnn tnnn, m_rows eA = 1%nat -> m_cols eA = 1%nat -> m_rows eB = 1%nat -> m_cols eB = 1%nat ->
  let l := Lat [Sub (Nm 0) pA eA 0 0; Sub (Nm 1) pB eB 1 1] (mono_fams K n t tnn tnnn) None 2 in
  exists uc reg hreg, one_cell_system l (l_subs l) (l_fams l) uc reg hreg (I3 1 1 1) (Sym (Some 1) (Some 1) None)%Z [true; true] [v0; v0] 1 /\
  site_at (I3 1 1 1) uc [true; true] 0 (zero3, 0%nat) /\ site_at (I3 1 1 1) uc [true; true] 1 (zero3, 1%nat).
Proof.
  intros K n pA pB eA eB t tnn tnnn RA CA RB CB l.
  assert (U : exists u v, unit_cell (l_subs l) (l_fams l) = Ok [u; v] /\ u_uid u = 0%nat /\ u_uid v = 1%nat).
  { destruct eA as [ra ca fa], eB as [rb cb fb]. cbn in RA, CA, RB, CB. subst. unfold l, l_subs, l_fams, mono_fams. destruct (2 <=? n)%Z, (3 <=? n)%Z; clear; vm_compute; eexists _, _; (split; [reflexivity|]); split; reflexivity. }
  destruct U as (u & v & EU & U1 & U2).
  assert (G : exists reg, site_registry (l_subs l) = Ok reg) by (eexists; reflexivity).
  assert (H : exists reg, hopping_registry (l_fams l) = Ok reg) by (eexists; reflexivity).
  destruct G as (reg & EG). destruct H as (hreg & EH).
  exists [u; v], reg, hreg. split.
  - constructor.
    + apply Permutation_refl.
    + apply Permutation_refl.
    + exact EU.
    + exact EG.
    + exact EH.
    + intros x o [<-|[<-|[]]] [<-|[<-|[]]] E; cbn in E; try discriminate; reflexivity.
    + unfold positive_block. cbn. lia.
    + unfold block_holds_period, period. cbn. lia.
    + reflexivity.
    + intros i a (C1 & C2 & C3) _ _. cbn in *. unfold in_period, in_period1, period. cbn. lia.
    + reflexivity.
    + intros [i1 i2 i3] [j1 j2 j3] (C1 & C2 & C3) (D1 & D2 & D3) _ _. cbn in *. f_equal; lia.
    + intros fam tm HF HI.
      assert (Z : iz (t_rel tm) = 0%Z).
      { destruct HF as [<-|[<-|[<-|[]]]]; cbn in HI; destruct (2 <=? n)%Z, (3 <=? n)%Z; cbn in HI; repeat (destruct HI as [<-|HI]; [reflexivity|]); destruct HI. }
      destruct (t_rel tm) as [a b c]. cbn in Z. subst c. destruct (Z.eq_dec a 0) as [->|Na]; [destruct (Z.eq_dec b 0) as [->|Nb]; [left; reflexivity|]|];
      right; (split; [unfold zero3; congruence|]); [exists 0%Z, b, 0%Z|exists a, b, 0%Z]; unfold period; cbn; f_equal; lia.
    + intros fam tm _ _. unfold short_range, short1, period. cbn. auto.
    + intros f [<-|[<-|[<-|[]]]]; cbn; lia.
  - split; [exists 0%nat|exists 1%nat]; (split; [unfold cell_of; cbn; lia|]); (split; [cbn; congruence|]); split; reflexivity.
Qed.
Example C64_example : exists m l subs fams uc reg hreg,
  monolayer 3 (re 1) (re (-1)) (re (-28/10)) (re (1/10)) (re (5/100)) = Some m /\ run (fun _ => true) (fun x => x) (mt_calls m) = Some l /\
  one_cell_system l subs fams uc reg hreg (I3 1 1 1) (Sym (Some 1) (Some 1) None)%Z [true; true] [v0; v0] 1 /\
  site_at (I3 1 1 1) uc [true; true] 0 (zero3, 0%nat) /\ site_at (I3 1 1 1) uc [true; true] 1 (zero3, 1%nat).
Proof.
  assert (RR : forall x, real_energy (re x : CX)) by (intros x; unfold real_energy, re; cbn; unfold cx_conj; cbn; f_equal; ring).
  destruct (monolayer 3 (re 1) (re (-1)) (re (-28/10)) (re (1/10)) (re (5/100))) as [m|] eqn:E; [|discriminate].
  destruct (mono_run CX (fun _ => true) (fun x => x) _ _ _ _ _ _ m (RR _) (RR _) (RR _) E) as (_ & _ & ER).
  match type of ER with _ = Some (Lat [Sub _ ?p1 ?e1 _ _; Sub _ ?p2 ?e2 _ _] (mono_fams _ ?n ?t ?u ?w) _ _) =>
    destruct (mono_cell CX n p1 p2 e1 e2 t u w eq_refl eq_refl eq_refl eq_refl) as (uc & reg & hreg & G) end.
  exists m. eexists. eexists. eexists. exists uc, reg, hreg. split; [reflexivity|]. split; [exact ER|]. exact G.
Qed.
