(* C86: the Coulomb potential and the Gaussian bump of the graphene repository. *)
From Coq Require Import Reals Lra Lia.
From Verif Require Import Base Rle Blocks TablesSpec Scalar Foundation Lattice Hamiltonian HamiltonianSpec HamCor Cplx Spectral Materials MaterialsSpec GrapheneModifiers MagneticProofs PropsHamiltonian GrapheneStrain PropsStrain.
Local Open Scope R_scope.

(** ** Specification *)
(** Energy in the potential of a charge [beta] (in units of [hbar vF]) at [o], constant within the cutoff.
    [hbar vF] is [3/2 |t| a_cc]. *)
Definition coulomb_energy (beta cutoff : R) (o p : vec3) : R := - (beta * (3 / 2 * Rabs g_t * g_acc)) / Rmax (dist p o) cutoff.

(** ** Coulomb potential *)
Lemma radius_max : forall cutoff o p, coulomb_radius cutoff o p = Rmax (dist p o) cutoff.
Proof.
  intros. unfold coulomb_radius, dist, Rmax.
  destruct (Rlt_dec _ cutoff); destruct (Rle_dec _ cutoff); try reflexivity; try lra.
Qed.
Lemma coulomb_is_energy : forall beta cutoff o p x, coulomb_radius cutoff o p <> 0 -> coulomb_func beta cutoff o p x = kadd x (re (coulomb_energy beta cutoff o p)).
Proof.
  intros beta cutoff o p x H. unfold coulomb_func, coulomb_energy. rewrite <- radius_max.
  assert (HB : 0 < hbar) by (unfold hbar; lra).
  replace (beta * hbar * g_vf) with (beta * (3 / 2 * Rabs g_t * g_acc)) by (unfold g_vf; field; lra).
  unfold re. cbn. unfold cx_sub, cx_add, cx_opp. cbn [fst snd]. f_equal; [field; exact H|ring].
Qed.
Lemma radius_pos : forall cutoff o p, 0 < cutoff -> 0 < coulomb_radius cutoff o p.
Proof. intros. rewrite radius_max. eapply Rlt_le_trans; [eassumption|apply Rmax_r]. Qed.

Definition coulomb_rule (beta cutoff : R) (o : vec3) : os_rule CX vec3 :=
  fun _ p A => Mat (m_rows A) (m_cols A) (fun i j => coulomb_func beta cutoff o p (m_at A i j)).
Lemma each_site_follows : forall f (m : onsite_mod CX vec3), (forall n ps nm buf, m n ps nm buf = Ok (each_site f ps buf)) ->
  os_follows m (fun _ p A => Mat (m_rows A) (m_cols A) (fun i j => f p (m_at A i j))).
Proof.
  intros f m HM. split.
  - intros nm p A B (H1 & H2 & H3). cbn. repeat split; auto. intros i j Hi Hj. cbn in *. rewrite H3 by auto. reflexivity.
  - intros n ps nm buf L. exists (each_site f ps buf). split; [apply HM|]. unfold each_site. split; [now rewrite map_length, seq_length|].
    intros i j k p Hi Hj Hp. assert (Hk : (k < length ps)%nat) by (apply nth_error_Some; congruence).
    destruct (nth_mod_elem n n (length ps) i j k Hi Hj Hk) as [E1 E2].
    assert (L' : length buf = (n * n * length ps)%nat) by (rewrite L; lia).
    unfold elem at 1. cbn [m_at m_rows m_cols].
    set (g := fun r : nat => f (nth (r mod length ps) ps v0) (nth r buf k0)).
    rewrite (nth_indep _ k0 (g 0%nat)) by (rewrite map_length, seq_length; lia).
    rewrite map_nth, seq_nth by lia. unfold g. rewrite Nat.add_0_l, E2, (nth_error_nth ps k v0 Hp). reflexivity.
Qed.
Lemma coulomb_follows : forall beta cutoff o, 0 < cutoff -> os_follows (coulomb_potential beta cutoff o) (coulomb_rule beta cutoff o).
Proof.
  intros beta cutoff o HC. apply (each_site_follows (coulomb_func beta cutoff o)). intros n ps nm buf. unfold coulomb_potential.
  replace (forallb _ ps) with true; [reflexivity|]. symmetry. apply forallb_forall. intros p _.
  destruct (Req_EM_T (coulomb_radius cutoff o p) 0) as [E|E]; [|reflexivity]. pose proof (radius_pos cutoff o p HC). lra.
Qed.

Add Ring CXp : (k_ring CX).
Lemma swap_last : forall a e b c : CX, kadd (kadd (kadd a e) b) c = kadd (kadd (kadd a b) c) e.
Proof. intros. ring. Qed.
(** With a cutoff the potential is added to every element of the block of a site, and to nothing else. *)
Theorem C86_coulomb :
  forall (sys : hsys CX vec3) om og hm hg un ph simple cap beta cutoff o, 0 < cutoff ->
  wf_hsys sys -> Forall2 os_follows om og -> Forall2 hop_follows hm hg -> cap_fits CX vec3 sys cap ->
  (simple = true -> simple_bonds sys) ->
  exists m0 m1, ham_make cap complex_type sys om hm un ph simple = Ok m0 /\
    ham_make cap complex_type sys (om ++ [coulomb_potential beta cutoff o]) hm un ph simple = Ok m1 /\
    forall s t p i j, nth_error (hs_pos sys) s = Some p -> (t < rle_size (hs_subs sys))%nat ->
      (i < norb_at (hs_subs sys) s)%nat -> (j < norb_at (hs_subs sys) t)%nat ->
      coeff m1 (row_of (hs_subs sys) s i) (row_of (hs_subs sys) t j)
      = kadd (coeff m0 (row_of (hs_subs sys) s i) (row_of (hs_subs sys) t j)) (if (s =? t)%nat then re (coulomb_energy beta cutoff o p) else k0).
Proof.
  intros sys om og hm hg un ph simple cap beta cutoff o HC W Ho Hh C S.
  assert (NT : nt_ok (@complex_type CX)) by (exact (complex_ok CX)).
  destruct (C18_elements_partial CX vec3 complex_type sys om og hm hg un ph simple cap NT W Ho Hh C S) as (m0 & E0 & _ & P0).
  assert (Ho' : Forall2 os_follows (om ++ [coulomb_potential beta cutoff o]) (og ++ [coulomb_rule beta cutoff o])).
  { apply Forall2_app; [exact Ho|]. constructor; [exact (coulomb_follows beta cutoff o HC)|constructor]. }
  destruct (C18_elements_partial CX vec3 complex_type sys _ _ hm hg un ph simple cap NT W Ho' Hh C S) as (m1 & E1 & _ & P1).
  exists m0, m1. split; [exact E0|]. split; [exact E1|]. intros s t p i j Hp Ht Hi Hj.
  assert (L : length (hs_pos sys) = rle_size (hs_subs sys)) by apply W.
  assert (Hs : (s < rle_size (hs_subs sys))%nat) by (rewrite <- L; apply nth_error_Some; congruence).
  rewrite P0, P1 by assumption. unfold element. destruct (Nat.eqb_spec s t) as [->|Ne]; [|ring].
  unfold site_matrix. rewrite Hp, fold_left_app. cbn [fold_left]. unfold coulomb_rule at 1. cbn [m_at].
  rewrite coulomb_is_energy by (pose proof (radius_pos cutoff o p HC); lra). apply swap_last.
Qed.
Print Assumptions C86_coulomb.

(** The energy: attractive for positive charge, weaker with the distance, bounded by the value at the cutoff,
    the Coulomb law outside. *)
Theorem C86_energy : forall beta cutoff o, 0 < cutoff -> 0 < beta ->
  (forall p, coulomb_energy beta cutoff o p < 0) /\
  (forall p, Rabs (coulomb_energy beta cutoff o p) <= beta * (3 / 2 * Rabs g_t * g_acc) / cutoff) /\
  (forall p q, dist p o <= dist q o -> coulomb_energy beta cutoff o p <= coulomb_energy beta cutoff o q) /\
  (forall p, cutoff <= dist p o -> coulomb_energy beta cutoff o p * dist p o = - (beta * (3 / 2 * Rabs g_t * g_acc))) /\
  (forall p, dist p o <= cutoff -> coulomb_energy beta cutoff o p * cutoff = - (beta * (3 / 2 * Rabs g_t * g_acc))).
Proof.
  intros beta cutoff o HC HB. set (k := beta * (3 / 2 * Rabs g_t * g_acc)).
  assert (K : 0 < k). { unfold k. apply Rmult_lt_0_compat; [exact HB|]. assert (0 < Rabs g_t) by (apply Rabs_pos_lt; unfold g_t; lra). pose proof acc_pos. apply Rmult_lt_0_compat; lra. }
  assert (M : forall p, cutoff <= Rmax (dist p o) cutoff) by (intro; apply Rmax_r).
  assert (N : forall p, coulomb_energy beta cutoff o p = - (k / Rmax (dist p o) cutoff)) by (intro p; unfold coulomb_energy; fold k; specialize (M p); field; lra).
  assert (Q : forall p, 0 < k / Rmax (dist p o) cutoff). { intro p. specialize (M p). apply Rmult_lt_0_compat; [exact K|apply Rinv_0_lt_compat; lra]. }
  split; [intro p; rewrite N; specialize (Q p); lra|]. split.
  { intro p. rewrite N, Rabs_Ropp, Rabs_pos_eq by (specialize (Q p); lra). apply Rmult_le_compat_l; [lra|]. apply Rinv_le_contravar; auto. }
  split.
  { intros p q H. rewrite !N. apply Ropp_le_contravar. apply Rmult_le_compat_l; [lra|]. apply Rinv_le_contravar; [specialize (M p); lra|].
    apply Rmax_case_strong; intro; [eapply Rle_trans; [exact H|apply Rmax_l]|apply Rmax_r]. }
  split; intros p H; rewrite N.
  - rewrite Rmax_left by exact H. field. lra.
  - rewrite Rmax_right by exact H. field. lra.
Qed.
Print Assumptions C86_energy.

(** "The potential shifts the energy of every orbital": not so with several orbitals, it also couples them. *)
Definition C86_claim_coulomb : Prop :=
  forall (sys : hsys CX vec3) un ph simple cap beta cutoff o m0 m1, 0 < cutoff -> wf_hsys sys -> cap_fits CX vec3 sys cap ->
  (simple = true -> simple_bonds sys) ->
  ham_make cap complex_type sys [] [] un ph simple = Ok m0 ->
  ham_make cap complex_type sys [coulomb_potential beta cutoff o] [] un ph simple = Ok m1 ->
  forall s t p i j, nth_error (hs_pos sys) s = Some p -> (t < rle_size (hs_subs sys))%nat ->
    (i < norb_at (hs_subs sys) s)%nat -> (j < norb_at (hs_subs sys) t)%nat ->
    coeff m1 (row_of (hs_subs sys) s i) (row_of (hs_subs sys) t j)
    = kadd (coeff m0 (row_of (hs_subs sys) s i) (row_of (hs_subs sys) t j)) (if ((s =? t) && (i =? j))%nat then re (coulomb_energy beta cutoff o p) else k0).
Definition spin_sys : hsys CX vec3 := HSys [Elem 0 1 2] [(0, 0, 0)] [(Nm 0, Mat 2 2 (fun _ _ => re 0))] [] (HB 1 []) [].
Lemma spin_wf : wf_hsys spin_sys.
Proof.
  split; [reflexivity|]. split; [reflexivity|]. split; [intros e [<-|[]]; cbn; lia|]. split; [|intros b []].
  split; [cbn; lia|]. intros f c H. destruct H.
Qed.
Lemma spin_cap : cap_fits CX vec3 spin_sys 10.
Proof. intros h [->|[]] f c H. destruct H. Qed.
Theorem C86_refuted_coulomb : ~ C86_claim_coulomb.
Proof.
  intro CL.
  assert (S : true = true -> simple_bonds spin_sys) by (intros _; unfold simple_bonds; cbn; constructor).
  destruct (C86_coulomb spin_sys [] [] [] [] (fun p _ => p) (fun _ => k1) true 10 1 1 (0, 0, 0) ltac:(lra) spin_wf (Forall2_nil _) (Forall2_nil _) spin_cap S)
    as (m0 & m1 & E0 & E1 & P).
  specialize (P 0%nat 0%nat (0, 0, 0) 0%nat 1%nat eq_refl ltac:(cbn; lia) ltac:(cbn; lia) ltac:(cbn; lia)).
  specialize (CL spin_sys (fun p _ => p) (fun _ => k1) true 10%nat 1 1 (0, 0, 0) m0 m1 ltac:(lra) spin_wf spin_cap S E0 E1 0%nat 0%nat (0, 0, 0) 0%nat 1%nat
    eq_refl ltac:(cbn; lia) ltac:(cbn; lia) ltac:(cbn; lia)).
  rewrite P in CL. cbn [Nat.eqb andb] in CL.
  set (c0 := coeff m0 _ _) in CL. destruct c0 as [u v]. unfold re in CL. cbn in CL. unfold cx_add in CL. cbn [fst snd] in CL. injection CL as CL.
  destruct (C86_energy 1 1 (0, 0, 0) ltac:(lra) ltac:(lra)) as [NG _]. specialize (NG (0, 0, 0)). lra.
Qed.
(** Single orbitals: the claim. *)
Theorem C86_coulomb_partial :
  forall (sys : hsys CX vec3) om og hm hg un ph simple cap beta cutoff o, 0 < cutoff ->
  wf_hsys sys -> Forall2 os_follows om og -> Forall2 hop_follows hm hg -> cap_fits CX vec3 sys cap ->
  (simple = true -> simple_bonds sys) -> (forall s, (s < rle_size (hs_subs sys))%nat -> norb_at (hs_subs sys) s = 1%nat) ->
  exists m0 m1, ham_make cap complex_type sys om hm un ph simple = Ok m0 /\
    ham_make cap complex_type sys (om ++ [coulomb_potential beta cutoff o]) hm un ph simple = Ok m1 /\
    forall s t p i j, nth_error (hs_pos sys) s = Some p -> (t < rle_size (hs_subs sys))%nat ->
      (i < norb_at (hs_subs sys) s)%nat -> (j < norb_at (hs_subs sys) t)%nat ->
      coeff m1 (row_of (hs_subs sys) s i) (row_of (hs_subs sys) t j)
      = kadd (coeff m0 (row_of (hs_subs sys) s i) (row_of (hs_subs sys) t j)) (if ((s =? t) && (i =? j))%nat then re (coulomb_energy beta cutoff o p) else k0).
Proof.
  intros sys om og hm hg un ph simple cap beta cutoff o HC W Ho Hh C S H1.
  destruct (C86_coulomb sys om og hm hg un ph simple cap beta cutoff o HC W Ho Hh C S) as (m0 & m1 & E0 & E1 & P).
  exists m0, m1. split; [exact E0|]. split; [exact E1|]. intros s t p i j Hp Ht Hi Hj. rewrite (P s t p i j Hp Ht Hi Hj).
  assert (L : length (hs_pos sys) = rle_size (hs_subs sys)) by apply W.
  assert (Hs : (s < rle_size (hs_subs sys))%nat) by (rewrite <- L; apply nth_error_Some; congruence).
  rewrite (H1 s Hs) in Hi. rewrite (H1 t Ht) in Hj. replace (i =? j)%nat with true by (symmetry; apply Nat.eqb_eq; lia). now rewrite andb_true_r.
Qed.
Print Assumptions C86_coulomb_partial.

(** Without cutoff (the default) a site at the charge has no finite energy. *)
Theorem C86_no_cutoff : forall beta o n nm buf ps, In o ps -> coulomb_potential beta 0 o n ps nm buf = UB.
Proof.
  intros beta o n nm buf ps H. unfold coulomb_potential. replace (forallb _ ps) with false; [reflexivity|]. symmetry.
  apply not_true_is_false. intro F. rewrite forallb_forall in F. specialize (F o H). destruct (Req_EM_T (coulomb_radius 0 o o) 0) as [E|E]; [discriminate F|].
  apply E. rewrite radius_max. unfold dist. replace ((vx o - vx o) ^ 2 + (vy o - vy o) ^ 2 + (vz o - vz o) ^ 2) with 0 by ring. rewrite sqrt_0. apply Rmax_left. lra.
Qed.

(** ** Gaussian bump *)
(** height above the plane *)
Definition profile (height sigma r2 : R) : R := height * exp (- r2 / sigma ^ 2).
Definition plane2 (p : vec3) (c : R * R) : R := (vx p - fst c) ^ 2 + (vy p - snd c) ^ 2.

(** In a flat layer at z = 0: sites rise by a profile that is radial, has its top at the centre and falls with
    the distance; x and y stay. *)
Theorem C86_bump : forall height sigma c p, 0 < height -> sigma <> 0 ->
  bump height sigma c p = (vx p, vy p, profile height sigma (plane2 p c)) /\
  (plane2 p c = 0 -> vz (bump height sigma c p) = height) /\
  (forall q, plane2 q c < plane2 p c -> vz (bump height sigma c p) < vz (bump height sigma c q)) /\
  (plane2 p c = sigma ^ 2 -> vz (bump height sigma c p) = height * exp (-1)) /\
  0 < vz (bump height sigma c p) <= height.
Proof.
  intros height sigma c p H S. assert (S2 : 0 < sigma ^ 2) by (rewrite <- Rsqr_pow2; now apply Rsqr_pos_lt).
  assert (V : forall q, vz (bump height sigma c q) = profile height sigma (plane2 q c)) by reflexivity.
  assert (P0 : profile height sigma 0 = height) by (unfold profile; replace (- 0 / sigma ^ 2) with 0 by (field; lra); rewrite exp_0; ring).
  assert (MO : forall a b, a < b -> profile height sigma b < profile height sigma a).
  { intros a b L. unfold profile. apply Rmult_lt_compat_l; [exact H|]. apply exp_increasing. unfold Rdiv. apply Rmult_lt_compat_r; [now apply Rinv_0_lt_compat|lra]. }
  assert (NN : 0 <= plane2 p c) by (unfold plane2; apply Rplus_le_le_0_compat; apply pow2_ge_0).
  split; [reflexivity|]. split; [intro E; rewrite V, E; exact P0|]. split; [intros q L; rewrite !V; now apply MO|]. split.
  - intro E. rewrite V, E. unfold profile. do 2 f_equal. field. lra.
  - rewrite V. split; [unfold profile; apply Rmult_lt_0_compat; [exact H|apply exp_pos]|].
    destruct NN as [L|E]; [apply MO in L; lra|rewrite <- E, P0; lra].
Qed.
Print Assumptions C86_bump.
(** A dent gives the same hoppings as a bump. *)
Theorem C86_dent : forall height sigma c p q x,
  strained_func (bump (- height) sigma c p) (bump (- height) sigma c q) x = strained_func (bump height sigma c p) (bump height sigma c q) x.
Proof.
  intros. rewrite !strained_is_factor. do 3 f_equal. unfold dist. f_equal. unfold bump, vx, vy, vz. cbn [fst snd]. ring.
Qed.

(** "The bump deforms the system": the claim that heights are raised by the profile holds for a layer at z = 0
    only; in a system of several layers sites above each other end up at one point. *)
Definition C86_claim_bump : Prop := forall height sigma c p, sigma <> 0 ->
  bump height sigma c p = (vx p, vy p, vz p + profile height sigma (plane2 p c)).
Theorem C86_refuted_bump : ~ C86_claim_bump.
Proof.
  intro C. specialize (C 1 1 (0, 0) (0, 0, 1) ltac:(lra)). unfold bump, profile, plane2, vx, vy, vz in C. cbn [fst snd] in C. injection C as C. lra.
Qed.
Theorem C86_bump_partial : forall height sigma c p, vz p = 0 -> bump height sigma c p = (vx p, vy p, vz p + profile height sigma (plane2 p c)).
Proof. intros height sigma c p Z. rewrite Z, Rplus_0_l. reflexivity. Qed.
Theorem C86_layers_collapse : forall height sigma c x y z z', bump height sigma c (x, y, z) = bump height sigma c (x, y, z').
Proof. reflexivity. Qed.

(** ** Examples *)
Example C86_example : coulomb_energy 2 (1 / 10) (0, 0, 0) (3, 4, 0) = - (2 * (3 / 2 * (28 / 10) * (142 / 1000))) / 5 /\
  vz (bump 2 1 (1, 1) (1, 1, 7)) = 2 /\
  fst (coulomb_func 2 (1 / 10) (0, 0, 0) (3, 4, 0) (re 1)) = 1 - 2 * (3 / 2 * (28 / 10) * (142 / 1000)) / 5.
Proof.
  assert (D : dist (3, 4, 0) (0, 0, 0) = 5).
  { unfold dist, vx, vy, vz. cbn [fst snd]. replace ((3 - 0) ^ 2 + (4 - 0) ^ 2 + (0 - 0) ^ 2) with (5 ^ 2) by ring. apply sqrt_pow2. lra. }
  assert (M : Rmax 5 (1 / 10) = 5) by (apply Rmax_left; lra).
  assert (T : Rabs g_t = 28 / 10) by (unfold g_t; rewrite Rabs_Ropp; apply Rabs_pos_eq; lra).
  split; [|split].
  - unfold coulomb_energy. rewrite D, M, T. unfold g_acc. field.
  - unfold bump, vx, vy, vz. cbn [fst snd]. replace (- ((1 - 1) ^ 2 + (1 - 1) ^ 2) / 1 ^ 2) with 0 by field. rewrite exp_0. ring.
  - rewrite coulomb_is_energy by (rewrite radius_max, D, M; lra). unfold coulomb_energy. rewrite D, M, T. unfold re, g_acc. cbn. field.
Qed.

(** ** The modifiers that are given to a model: every site by itself, and hoppings as strained (C85_elements). *)
Theorem C86_modifiers : forall height sigma c field ps k p, nth_error ps k = Some p ->
  nth_error (fst (gaussian_bump height sigma c) ps) k = Some (vx p, vy p, profile height sigma (plane2 p c)) /\
  nth_error (fst (triaxial_strain field) ps) k = Some (triaxial (field_to_strain field) p) /\
  snd (gaussian_bump height sigma c) = strained_hopping /\ snd (triaxial_strain field) = strained_hopping /\
  length (fst (gaussian_bump height sigma c) ps) = length ps /\ length (fst (triaxial_strain field) ps) = length ps.
Proof.
  intros height sigma c field ps k p H. unfold gaussian_bump, triaxial_strain. cbn [fst snd]. rewrite !nth_error_map, H, !map_length. repeat split.
Qed.
Print Assumptions C86_modifiers.
Example C86_modifiers_example : fst (gaussian_bump 2 1 (1, 0)) [(1, 0, 7)] = [(1, 0, 2)].
Proof. cbn. unfold bump, vx, vy. cbn [fst snd]. replace (- ((1 - 1) ^ 2 + (0 - 0) ^ 2) / 1 ^ 2) with 0 by field. rewrite exp_0, Rmult_1_r. reflexivity. Qed.
