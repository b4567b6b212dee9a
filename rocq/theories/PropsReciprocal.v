(* C73: reciprocal lattice vectors and the periodicity of the Bloch Hamiltonian. *)
From Coq Require Import Reals Lra Lia.
From Verif Require Import Base Rle Blocks TablesSpec Scalar Foundation Lattice Symmetry SystemBuild Hamiltonian HamiltonianSpec HamCor HamElements RSum Cplx Spectral
  Materials MaterialsSpec MassProofs Reciprocal PropsHamiltonian PropsDirac.
Local Open Scope R_scope.
Add Ring CXr : (k_ring CX).

(** ** Specification *)
Definition dot (u v : vec3) : R := vx u * vx v + vy u * vy v + vz u * vz v.
(** [b_i . a_j] is 2 pi for i = j and zero otherwise. *)
Definition dual (vs bs : list vec3) : Prop :=
  length bs = length vs /\
  forall i j, (i < length vs)%nat -> (j < length vs)%nat -> dot (nth i bs v0) (nth j vs v0) = if (i =? j)%nat then 2 * PI else 0.
(** The lattice vectors span a lattice of as many dimensions. *)
Definition independent (vs : list vec3) : Prop :=
  (0 < length vs <= 3)%nat /\
  forall c1 c2 c3, vadd (vscale c1 (nth 0 vs v0)) (vadd (vscale c2 (nth 1 vs v0)) (vscale c3 (nth 2 vs v0))) = v0 ->
    ((0 < length vs)%nat -> c1 = 0) /\ ((1 < length vs)%nat -> c2 = 0) /\ ((2 < length vs)%nat -> c3 = 0).
(** Vector without its coordinates from number [n] on. *)
Definition cut (n : nat) (v : vec3) : vec3 := (vx v, if (2 <=? n)%nat then vy v else 0, if (3 <=? n)%nat then vz v else 0).

(** Every lattice has reciprocal vectors. *)
Definition C73_claim : Prop := forall vs, independent vs -> exists bs, reciprocal_vectors vs = Ok bs /\ dual vs bs.

(** False: a chain along y has none, the program drops all but the first coordinate. *)
Theorem C73_refuted : ~ C73_claim.
Proof.
  intros H. destruct (H [(0, 1, 0)]) as (bs & E & _).
  - split; [cbn; lia|]. intros c1 c2 c3 E. cbn [nth] in E. unfold vadd, vscale, v0, vx, vy, vz in E. cbn [fst snd] in E.
    assert (E2 : snd (fst (c1 * 0 + (c2 * 0 + c3 * 0), c1 * 1 + (c2 * 0 + c3 * 0), c1 * 0 + (c2 * 0 + c3 * 0))) = 0) by (rewrite E; reflexivity).
    cbn [fst snd] in E2. repeat split; intros; cbn in *; try lia. lra.
  - unfold reciprocal_vectors, vx in E. cbn [fst snd] in E. destruct (Req_EM_T 0 0); [discriminate|congruence].
Qed.
Print Assumptions C73_refuted.

Lemma dual_ok : forall vs bs, reciprocal_vectors vs = Ok bs -> dual vs bs.
Proof.
  intros [|[[x1 y1] z1] [|[[x2 y2] z2] [|[[x3 y3] z3] [|? ?]]]] bs E; try discriminate E; cbn in E;
    unfold vx, vy, vz in E; cbn [fst snd] in E; (destruct (Req_EM_T _ 0) as [|N]; [discriminate E|]);
    match type of E with Ok ?u = Ok bs => assert (E' : bs = u) by congruence end; clear E; subst bs.
  - split; [reflexivity|]. intros i j Hi Hj. cbn in Hi, Hj. destruct i; [|lia]. destruct j; [|lia]. cbn. unfold dot, vx, vy, vz. cbn [fst snd]. field. exact N.
  - split; [reflexivity|]. intros i j Hi Hj. cbn in Hi, Hj.
    destruct i as [|[|i]]; [| |lia]; (destruct j as [|[|j]]; [| |lia]); cbn; unfold dot, vx, vy, vz; cbn [fst snd]; field; exact N.
  - split; [reflexivity|]. intros i j Hi Hj. cbn in Hi, Hj.
    destruct i as [|[|[|i]]]; [| | |lia]; (destruct j as [|[|[|j]]]; [| | |lia]); cbn; unfold dot, vscale, vx, vy, vz; cbn [fst snd]; field; exact N.
Qed.

(** When the program returns vectors they are the reciprocal ones, whatever the lattice vectors:
    also for chains and sheets that leave the axis or the plane. *)
Theorem C73_dual : forall vs bs, reciprocal_vectors vs = Ok bs -> dual vs bs /\
  forall i, (i < length vs)%nat -> cut (length vs) (nth i bs v0) = nth i bs v0.
Proof.
  intros vs bs E. split; [apply dual_ok; exact E|].
  destruct vs as [|[[x1 y1] z1] [|[[x2 y2] z2] [|[[x3 y3] z3] [|? ?]]]]; try discriminate E; cbn in E; (destruct (Req_EM_T _ 0) as [|N]; [discriminate E|]);
    match type of E with Ok ?u = Ok bs => assert (E' : bs = u) by congruence end; clear E; subst bs; intros i Hi; cbn in Hi;
    destruct i as [|[|[|i]]]; try lia; reflexivity.
Qed.
Print Assumptions C73_dual.

(** They are returned exactly when the vectors are independent in their first coordinates, as many
    as the lattice has dimensions: always for a lattice along the x-axis, in the xy-plane, or in space. *)
Theorem C73_partial : forall vs, independent (map (cut (length vs)) vs) -> exists bs, reciprocal_vectors vs = Ok bs /\ dual vs bs.
Proof.
  intros vs [L I]. rewrite map_length in L, I.
  assert (X : exists bs, reciprocal_vectors vs = Ok bs); [|destruct X as (bs & E); exists bs; split; [exact E|apply dual_ok; exact E]].
  destruct vs as [|[[x1 y1] z1] [|[[x2 y2] z2] [|[[x3 y3] z3] [|? ?]]]]; try (cbn in L; lia); cbn [length] in I;
    cbn [map nth] in I; unfold cut, vadd, vscale, v0, vx, vy, vz in I; cbn [fst snd Nat.leb] in I; cbn [reciprocal_vectors]; unfold vx, vy, vz; cbn [fst snd];
    (destruct (Req_EM_T _ 0) as [Z|N]; [|eexists; reflexivity]); exfalso.
  - destruct (I 1 0 0) as (A & _); [rewrite Z; repeat f_equal; ring|]. specialize (A ltac:(lia)). lra.
  - (* the rows of the adjugate are relations between the vectors *)
    destruct (I y2 (- y1) 0) as (A1 & A2 & _); [f_equal; [f_equal|]; (ring_simplify; try reflexivity; lra) || ring|].
    destruct (I x2 (- x1) 0) as (B1 & B2 & _); [f_equal; [f_equal|]; (ring_simplify; try reflexivity; lra) || ring|].
    specialize (A1 ltac:(lia)). specialize (A2 ltac:(lia)). specialize (B1 ltac:(lia)). specialize (B2 ltac:(lia)).
    assert (x1 = 0) by lra. assert (y1 = 0) by lra. subst.
    destruct (I 1 0 0) as (A & _); [f_equal; [f_equal|]; ring|]. specialize (A ltac:(lia)). lra.
  - assert (R1 : forall c1 c2 c3, c1 * x1 + c2 * x2 + c3 * x3 = 0 -> c1 * y1 + c2 * y2 + c3 * y3 = 0 -> c1 * z1 + c2 * z2 + c3 * z3 = 0 -> c1 = 0 /\ c2 = 0 /\ c3 = 0).
    { intros c1 c2 c3 H1 H2 H3. destruct (I c1 c2 c3) as (A & B & C); [f_equal; [f_equal|]; lra|]. repeat split; [apply A|apply B|apply C]; lia. }
    assert (D : forall p q r, p = 0 -> q = 0 -> r = 0 -> p = 0 /\ q = 0 /\ r = 0) by auto.
    destruct (R1 (y2 * z3 - y3 * z2) (y3 * z1 - y1 * z3) (y1 * z2 - y2 * z1)) as (M11 & M12 & M13); [lra|ring|ring|].
    destruct (R1 (z2 * x3 - z3 * x2) (z3 * x1 - z1 * x3) (z1 * x2 - z2 * x1)) as (M21 & M22 & M23); [ring|lra|ring|].
    destruct (R1 (x2 * y3 - x3 * y2) (x3 * y1 - x1 * y3) (x1 * y2 - x2 * y1)) as (M31 & M32 & M33); [ring|ring|lra|].
    (* all minors vanish: the first two vectors are parallel *)
    destruct (R1 x2 (- x1) 0) as (U1 & U2 & _); [ring|lra|lra|].
    destruct (R1 y2 (- y1) 0) as (U3 & U4 & _); [lra|ring|lra|].
    destruct (R1 z2 (- z1) 0) as (U5 & U6 & _); [lra|lra|ring|].
    destruct (R1 1 0 0) as (U & _); [lra|lra|lra|]. lra.
Qed.
Print Assumptions C73_partial.

(** ** The Hamiltonian at wave vectors that differ by a reciprocal lattice vector *)
(** All periodic boundaries are translations of the lattice. *)
Definition lattice_periodic (vs : list vec3) (sys : hsys CX vec3) : Prop := forall b, In b (hs_bounds sys) -> exists T, snd b = corner vs T.

Lemma ofold_same : forall A B (f g : B -> A -> outcome B) l b, (forall x, In x l -> forall b, f b x = g b x) -> ofold f l b = ofold g l b.
Proof.
  intros A B f g. induction l as [|x l IH]; intros b H; [reflexivity|]. cbn [ofold]. rewrite (H x) by (left; reflexivity).
  destruct (g b x); cbn [obind]; [|reflexivity|reflexivity]. apply IH. intros y Hy. apply H. right. exact Hy.
Qed.
Lemma phase_same : forall (sys : hsys CX vec3) cap nt om hm un ph ph' simple, (forall b, In b (hs_bounds sys) -> ph (snd b) = ph' (snd b)) ->
  ham_make cap nt sys om hm un ph simple = ham_make cap nt sys om hm un ph' simple.
Proof.
  intros sys cap nt om hm un ph ph' simple H. unfold ham_make. destruct (build_main _ _ _ _ _ _); cbn [obind]; [|reflexivity|reflexivity].
  unfold build_periodic. apply ofold_same. intros b Hb m. rewrite (H b Hb). reflexivity.
Qed.

Lemma turn : forall a n, (cos (a + 2 * PI * IZR n), sin (a + 2 * PI * IZR n)) = (cos a, sin a).
Proof.
  intros a n. assert (P : forall b (m : nat), (cos (b + 2 * PI * INR m), sin (b + 2 * PI * INR m)) = (cos b, sin b)).
  { intros b m. replace (b + 2 * PI * INR m) with (b + 2 * INR m * PI) by ring. rewrite cos_period, sin_period. reflexivity. }
  destruct (Z_le_gt_dec 0 n) as [H|H].
  - rewrite <- (Z2Nat.id n) by lia. rewrite <- INR_IZR_INZ. apply P.
  - rewrite <- (P (a + 2 * PI * IZR n) (Z.to_nat (- n))). rewrite INR_IZR_INZ, Z2Nat.id by lia. rewrite opp_IZR.
    replace (a + 2 * PI * IZR n + 2 * PI * - IZR n) with a by ring. reflexivity.
Qed.
Lemma dot_vadd : forall u v w, dot u (vadd v w) = dot u v + dot u w. Proof. intros. unfold dot, vadd, vx, vy, vz. cbn [fst snd]. ring. Qed.
Lemma dot_vscale : forall u c v, dot u (vscale c v) = c * dot u v. Proof. intros. unfold dot, vscale, vx, vy, vz. cbn [fst snd]. ring. Qed.
Lemma dot_comm : forall u v, dot u v = dot v u. Proof. intros. unfold dot. ring. Qed.
Lemma dot_v0 : forall u, dot u v0 = 0. Proof. intros. unfold dot, v0, vx, vy, vz. cbn [fst snd]. ring. Qed.

Lemma whole_turns : forall vs bs G T, dual vs bs -> exists n, dot (corner bs G) (corner vs T) = 2 * PI * IZR n.
Proof.
  intros vs bs G T [L D].
  set (ind := fun i => if (i <? length vs)%nat then 1%Z else 0%Z).
  exists (ix G * ix T * ind 0%nat + iy G * iy T * ind 1%nat + iz G * iz T * ind 2%nat)%Z.
  assert (D' : forall i j, dot (nth i bs v0) (nth j vs v0) = if (i =? j)%nat then 2 * PI * IZR (ind i) else 0).
  { intros i j. unfold ind. destruct (Nat.ltb_spec i (length vs)) as [Hi|Hi].
    - destruct (le_lt_dec (length vs) j) as [Hj|Hj].
      + rewrite (nth_overflow vs) by exact Hj. rewrite dot_v0. destruct (Nat.eqb_spec i j); [lia|reflexivity].
      + rewrite D by assumption. destruct (i =? j)%nat; ring.
    - rewrite (nth_overflow bs) by lia. rewrite dot_comm, dot_v0. destruct (i =? j)%nat; ring. }
  unfold corner. rewrite !dot_vadd, !dot_vscale, !(dot_comm (vadd _ _)), !dot_vadd, !dot_vscale.
  rewrite !(dot_comm (nth _ vs v0)), !D'. cbn [Nat.eqb]. rewrite !plus_IZR, !mult_IZR. ring.
Qed.

Theorem C73_periodic : forall vs bs (sys : hsys CX vec3) cap nt om hm un simple k G,
  reciprocal_vectors vs = Ok bs -> lattice_periodic vs sys ->
  ham_make cap nt sys om hm un (plane_wave (vadd k (corner bs G))) simple = ham_make cap nt sys om hm un (plane_wave k) simple.
Proof.
  intros vs bs sys cap nt om hm un simple k G E LP. apply phase_same. intros b Hb. destruct (LP b Hb) as (T & ->).
  destruct (whole_turns vs bs G T (dual_ok _ _ E)) as (n & W).
  change (plane_wave (vadd k (corner bs G)) (corner vs T)) with ((cos (dot (vadd k (corner bs G)) (corner vs T)), sin (dot (vadd k (corner bs G)) (corner vs T))) : CX).
  rewrite dot_comm, dot_vadd, (dot_comm _ k), (dot_comm _ (corner bs G)), W. apply turn.
Qed.
Print Assumptions C73_periodic.

(** Systems built from a lattice with these vectors are of this kind. *)
Theorem C73_systems : forall vs dflt size uc s reg hreg fpos valid sys,
  build_system dflt size uc s (corner vs) reg hreg fpos valid = Ok sys -> lattice_periodic vs sys.
Proof.
  intros vs dflt size uc s reg hreg fpos valid sys E. unfold build_system in E.
  destruct (populate_system _ _ _ _ _ _) as [st| |]; [|discriminate E|discriminate E]. cbn [obind] in E.
  destruct (boundaries_of _ _ _ _ _) as [bs| |]; [|discriminate E|discriminate E]. cbn [obind] in E. injection E as <-.
  intros b Hb. cbn [hs_bounds] in Hb. apply in_map_iff in Hb. destruct Hb as (x & <- & _). eexists. reflexivity.
Qed.
Print Assumptions C73_systems.

(** ** Time reversal: opposite wave vectors have conjugate Hamiltonians when all energies are real *)
Definition real_mat (A : mat CX) : Prop := forall i j, kconj (m_at A i j) = m_at A i j.
Definition real_onsite (g : os_rule CX vec3) : Prop := forall nm p A, real_mat A -> real_mat (g nm p A).
Definition real_hop (g : hop_rule CX vec3) : Prop := forall nm p q A, real_mat A -> real_mat (g nm p q A).
Definition real_energies (sys : hsys CX vec3) : Prop :=
  (forall i, real_mat (snd (reg_entry (hs_site sys) i))) /\ (forall i, real_mat (snd (reg_entry (hs_hop sys) i))).
Definition backward (k : vec3) : vec3 := vscale (-1) k.

Lemma wave_back : forall k d, plane_wave (backward k) d = kconj (plane_wave k d).
Proof.
  intros k d. unfold plane_wave, backward, vscale, vx, vy, vz. cbn [fst snd]. cbn. unfold cx_conj. cbn [fst snd].
  replace (-1 * fst (fst k) * fst (fst d) + -1 * snd (fst k) * snd (fst d) + -1 * snd k * snd d)
    with (- (fst (fst k) * fst (fst d) + snd (fst k) * snd (fst d) + snd k * snd d)) by ring.
  rewrite cos_neg, sin_neg. reflexivity.
Qed.
Lemma real_fold_os : forall og nm p A, (forall g, In g og -> real_onsite g) -> real_mat A -> real_mat (fold_left (fun A g => g nm p A) og A).
Proof. induction og as [|g og IH]; intros nm p A H RA; [exact RA|]. cbn [fold_left]. apply IH; [intros; apply H; right; assumption|]. apply H; [left; reflexivity|exact RA]. Qed.
Lemma real_fold_hop : forall hg nm p q A, (forall g, In g hg -> real_hop g) -> real_mat A -> real_mat (fold_left (fun A g => g nm p q A) hg A).
Proof. induction hg as [|g hg IH]; intros nm p q A H RA; [exact RA|]. cbn [fold_left]. apply IH; [intros; apply H; right; assumption|]. apply H; [left; reflexivity|exact RA]. Qed.
Lemma conj_part : forall T c s i t j, kconj (hop_part (complex_type (R := CX)) T c s i t j) = hop_part complex_type (fun a b => kconj (T a b)) c s i t j.
Proof.
  intros. unfold hop_part. rewrite kconj_add. cbn [nt_conj complex_type]. f_equal; destruct (_ && _); try apply kconj_0; reflexivity.
Qed.

Theorem C73_reversal : forall (sys : hsys CX vec3) om og hm hg un simple cap k,
  wf_hsys sys -> Forall2 os_follows om og -> Forall2 hop_follows hm hg -> cap_fits CX vec3 sys cap -> (simple = true -> simple_bonds sys) ->
  real_energies sys -> (forall g, In g og -> real_onsite g) -> (forall g, In g hg -> real_hop g) ->
  exists m m', ham_make cap complex_type sys om hm un (plane_wave k) simple = Ok m /\ ham_make cap complex_type sys om hm un (plane_wave (backward k)) simple = Ok m' /\
    forall s i t j, (s < rle_size (hs_subs sys))%nat -> (t < rle_size (hs_subs sys))%nat -> (i < norb_at (hs_subs sys) s)%nat -> (j < norb_at (hs_subs sys) t)%nat ->
      coeff m' (row_of (hs_subs sys) s i) (row_of (hs_subs sys) t j) = kconj (coeff m (row_of (hs_subs sys) s i) (row_of (hs_subs sys) t j)).
Proof.
  intros sys om og hm hg un simple cap k W Ho Hh C S [RS RH] RO RG.
  destruct (C18_elements_partial CX vec3 complex_type sys om og hm hg un (plane_wave k) simple cap complex_ok W Ho Hh C S) as (m & E & _ & EL).
  destruct (C18_elements_partial CX vec3 complex_type sys om og hm hg un (plane_wave (backward k)) simple cap complex_ok W Ho Hh C S) as (m' & E' & _ & EL').
  exists m, m'. split; [exact E|]. split; [exact E'|]. intros s i t j Hs Ht Hi Hj. rewrite EL, EL' by assumption. clear EL EL' E E' m m'.
  assert (RHM : forall sh f c, real_mat (hop_matrix complex_type sys hg sh f c)).
  { intros sh f c. unfold hop_matrix. cbv zeta. assert (B : real_mat (cast_mat complex_type (snd (reg_entry (hs_hop sys) f)))) by (intros a b; apply RH).
    destruct (nth_error (hs_pos sys) (fst c)), (nth_error (hs_pos sys) (snd c)); try exact B. apply real_fold_hop; assumption. }
  unfold element. rewrite !kconj_add. f_equal; [f_equal|].
  - destruct (s =? t)%nat; [|rewrite kconj_0; reflexivity]. symmetry.
    assert (B : real_mat (cast_mat complex_type (snd (reg_entry (hs_site sys) (fst (nth s (site_list (hs_subs sys)) (0, 0))%nat))))) by (intros a b; apply RS).
    unfold site_matrix. cbv zeta. destruct (nth_error (hs_pos sys) s); [|apply B]. apply (real_fold_os og); [exact RO|exact B].
  - rewrite (ksum_conj CX). apply (ksum_ext CX). intros fc _. rewrite conj_part. unfold hop_part. rewrite !RHM. reflexivity.
  - rewrite (ksum_conj CX). apply (ksum_ext CX). intros b _. rewrite (ksum_conj CX). apply (ksum_ext CX). intros fc _. rewrite conj_part. unfold hop_part. cbn [nt_cast nt_conj complex_type].
    rewrite wave_back, !kconj_mul, !RHM. reflexivity.
Qed.
Print Assumptions C73_reversal.

(** ** Examples *)
(** The example of the documentation (lattice.py:294-296). *)
Example C73_doc_example : reciprocal_vectors [(0, 1, 0); (1/2, 1/2, 0)] = Ok [(- 2 * PI, 2 * PI, 0); (4 * PI, 0, 0)].
Proof.
  cbn. unfold vx, vy. cbn [fst snd]. destruct (Req_EM_T _ 0) as [Z|N]; [exfalso; lra|]. f_equal. f_equal; [|f_equal]; f_equal; f_equal; field.
Qed.
(** Graphene: K is a third of the way along a sum of reciprocal vectors, and the boundaries of the
    one-cell system are lattice translations. *)
Example C73_graphene : exists b1 b2, reciprocal_vectors [(g_a, 0, 0); (g_a / 2, g_a / 2 * sqrt 3, 0)] = Ok [b1; b2] /\
  vadd (vscale (2 / 3) b1) (vscale (1 / 3) b2) = corner_K g_a.
Proof.
  assert (S3 : 0 < sqrt 3) by (apply sqrt_lt_R0; lra).
  unfold reciprocal_vectors, vx, vy. cbn [fst snd]. destruct (Req_EM_T _ 0) as [Z|N].
  - exfalso. unfold g_a in Z. assert (24595 / 100000 * (24595 / 100000 / 2 * sqrt 3) > 0) by (apply Rmult_gt_0_compat; lra). lra.
  - eexists _, _. split; [reflexivity|]. unfold vadd, vscale, vx, vy, vz, corner_K. cbn [fst snd]. f_equal; [f_equal|]; unfold g_a; field; lra.
Qed.
