(* C100: densities of a finite system in a magnetic field. *)
From Coq Require Import Reals Lra Lia.
From Verif Require Import Base Rle Blocks TablesSpec Scalar Foundation Lattice Hamiltonian HamiltonianSpec HamElements HamHermitian HamCor Cplx Spectral Materials MaterialsSpec GrapheneModifiers MagneticProofs PropsHamiltonian PropsMagnetic
  Kpm KpmSpec KpmFinal RSum SpectralProofs SpectralLine PropsSpectral Compress CompressProofs PropsCovariance.
Local Open Scope R_scope.
Add Ring CXcov3 : (k_ring CX).

(** The same system at another place *)
Definition moved (d : vec3) (sys : hsys CX vec3) : hsys CX vec3 :=
  HSys (hs_subs sys) (map (fun p => MaterialsSpec.vadd p d) (hs_pos sys)) (hs_site sys) (hs_hop sys) (hs_hops sys) (hs_bounds sys).

(** Site of a row *)
Definition site_of (d : rle) (r : nat) : nat :=
  match find (fun n => existsb (fun q => row_of d n q =? r)%nat (seq 0 (norb_at d n))) (seq 0 (rle_size d)) with Some n => n | None => O end.
Lemma site_of_row : forall d n q, (n < rle_size d)%nat -> (q < norb_at d n)%nat -> site_of d (row_of d n q) = n.
Proof.
  intros d n q Hn Hq. unfold site_of. destruct (find _ _) as [m|] eqn:E.
  - apply find_some in E. destruct E as (I & E). apply in_seq in I. apply existsb_exists in E. destruct E as (q' & I' & E). apply in_seq in I'. apply Nat.eqb_eq in E.
    apply row_of_inj in E; try lia; tauto.
  - exfalso. apply find_none with (x := n) in E; [|apply in_seq; lia]. assert (T : existsb (fun q' => row_of d n q' =? row_of d n q)%nat (seq 0 (norb_at d n)) = true); [|congruence].
    apply existsb_exists. exists q. split; [apply in_seq; lia|apply Nat.eqb_refl].
Qed.

Section Field.
  Variables (sys : hsys CX vec3) (un : vec3 -> vec3 -> vec3) (ph : vec3 -> CX) (simple : bool) (cap : nat).
  Hypothesis W : wf_hsys sys.
  Hypothesis HE : hermitian_energies complex_type sys.
  Hypothesis C : cap_fits CX vec3 sys cap.
  Hypothesis S : simple = true -> simple_bonds sys.
  Hypothesis HB : hs_bounds sys = [].
  Local Notation d := (hs_subs sys).
  Local Notation N := (hamiltonian_size (hs_subs sys)).

  (** A system with a field is [phase]s times the one without. *)
  Lemma field_matrix : forall B, exists m0 mB, ham_make cap complex_type sys [] [] un ph simple = Ok m0 /\
    ham_make cap complex_type sys [] [constant_magnetic_field B] un ph simple = Ok mB /\
    wf_csr N (compress N mB) /\ KpmSpec.hermitian N (coef (compress N mB)) /\
    forall s t i j, (s < rle_size d)%nat -> (t < rle_size d)%nat -> (i < norb_at d s)%nat -> (j < norb_at d t)%nat ->
      coef (compress N mB) (row_of d s i) (row_of d t j) = kmul (element complex_type sys [] [] un ph s i t j) (peierls B (nth s (hs_pos sys) v0) (nth t (hs_pos sys) v0)).
  Proof using W HE C S HB.
    intros B. destruct (C70 sys [] [] [] [] un ph simple cap B W (Forall2_nil _) (Forall2_nil _) C S HB) as (m0 & mB & E0 & E1 & P).
    destruct (C18_elements_partial CX vec3 complex_type sys [] [] [] [] un ph simple cap (complex_ok CX) W (Forall2_nil _) (Forall2_nil _) C S) as (m0' & E0' & _ & P0).
    assert (m0' = m0) by congruence. subst m0'.
    destruct (C18_elements_partial CX vec3 complex_type sys [] [] [constant_magnetic_field B] [magnetic_rule B] un ph simple cap (complex_ok CX) W (Forall2_nil _)
      ltac:(constructor; [apply magnetic_follows|constructor]) C S) as (mB' & E1' & R1 & _).
    change ([] ++ [constant_magnetic_field B]) with [constant_magnetic_field B] in E1.
    assert (mB' = mB) by congruence. subst mB'.
    exists m0, mB. split; [exact E0|]. split; [exact E1|]. split; [apply compress_wf; exact R1|]. split.
    - destruct (ham_symmetric CX vec3 complex_type (complex_ok CX) sys cap [] [constant_magnetic_field B] un ph simple mB HE ltac:(constructor) E1) as (SY & _).
      intros i j Hi Hj. rewrite !compress_coef by assumption. symmetry. exact (SY i j).
    - intros s t i j Hs Ht Hi Hj. rewrite compress_coef by (apply row_of_lt; assumption).
      assert (L : length (hs_pos sys) = rle_size d) by apply W.
      rewrite (P s t (nth s (hs_pos sys) v0) (nth t (hs_pos sys) v0)) by (auto; apply nth_error_nth'; lia).
      rewrite P0 by assumption. reflexivity.
  Qed.
End Field.

Lemma element_moved : forall sys dd un ph s i t j, hs_bounds sys = [] ->
  element complex_type (moved dd sys) [] [] un ph s i t j = element complex_type sys [] [] un ph s i t j.
Proof.
  intros sys dd un ph s i t j HB. unfold element. cbn [moved hs_hops hs_bounds]. rewrite HB. f_equal. f_equal.
  - unfold site_matrix. cbn [moved hs_pos hs_site hs_subs fold_left]. rewrite nth_error_map. destruct (nth_error (hs_pos sys) s); reflexivity.
  - apply ksum_ext. intros (f & c) _. cbn [fst snd]. unfold hop_part, hop_matrix. cbn [moved hs_pos hs_hop fold_left]. rewrite !nth_error_map.
    destruct (nth_error (hs_pos sys) (fst c)), (nth_error (hs_pos sys) (snd c)); reflexivity.
Qed.

(** The local density of a finite system in a magnetic field does not depend on where the origin of
    the coordinates is, though the matrix does. *)
Theorem C100_field_origin : forall (sys : hsys CX vec3) un ph simple cap B dd,
  wf_hsys sys -> hermitian_energies complex_type sys -> cap_fits CX vec3 sys cap -> (simple = true -> simple_bonds sys) -> hs_bounds sys = [] ->
  let N := hamiltonian_size (hs_subs sys) in
  exists m m', ham_make cap complex_type sys [] [constant_magnetic_field B] un ph simple = Ok m /\
    ham_make cap complex_type (moved dd sys) [] [constant_magnetic_field B] un ph simple = Ok m' /\
    forall kn lo hi broadening energy f al f' al' idx k i, offered kn -> lo < hi -> 0 < broadening ->
      can_run N (compress N m) lo hi al f -> can_run N (compress N m') lo hi al' f' -> (forall j, In j idx -> (j < N)%nat) -> nth_error idx k = Some i ->
      exists ys, length ys = length energy /\
        calc_ldos f kn al lo hi (compress N m) idx k broadening energy = Ok ys /\ calc_ldos f' kn al' lo hi (compress N m') idx k broadening energy = Ok ys.
Proof.
  intros sys un ph simple cap B dd W HE C S HB N.
  destruct (field_matrix sys un ph simple cap W HE C S HB B) as (_ & m & _ & E & Wf & Hh & P).
  destruct (field_matrix (moved dd sys) un ph simple cap) with (B := B) as (_ & m' & _ & E' & Wf' & Hh' & P').
  { destruct W as (W1 & W2). split; [cbn [moved hs_pos hs_subs]; rewrite map_length; exact W1|exact W2]. }
  { exact HE. } { exact C. } { exact S. } { exact HB. }
  change (hs_subs (moved dd sys)) with (hs_subs sys) in *. fold N in Wf, Hh, P, Wf', Hh', P'.
  exists m, m'. split; [exact E|]. split; [exact E'|]. intros kn lo hi br energy f al f' al' idx k i Hk Hl Hb Hr Hr' Hi Ek.
  assert (HN : (0 < N)%nat) by (assert (i < N)%nat by (apply Hi; eapply nth_error_In; exact Ek); lia).
  set (u := fun r => expi (2 * PI * (flux B (vx (nth (site_of (hs_subs sys) r) (hs_pos sys) v0) * vy dd) / phi0))).
  apply (C100_ldos kn lo hi N (fun r => r) u (compress N m) (compress N m') br energy f al f' al' idx k idx k i); auto.
  split; [split; [auto|split; [auto|]]|].
  - intros r _. unfold u, expi, abs2, mk. cbn [fst snd]. rewrite Rplus_comm. exact (sin2_cos2 _).
  - intros r c Hr0 Hc0. change (re 1) with (@k1 CX).
    destruct (row_of_onto (hs_subs sys) r Hr0) as (s & i0 & Hs & Hi0 & ->). destruct (row_of_onto (hs_subs sys) c Hc0) as (t & j0 & Ht & Hj0 & ->).
    rewrite P, P', element_moved by assumption. unfold u. rewrite !site_of_row by assumption. cbn [moved hs_pos].
    assert (L : length (hs_pos sys) = rle_size (hs_subs sys)) by apply W.
    set (mv := fun p => MaterialsSpec.vadd p dd).
    assert (NM : forall n, (n < rle_size (hs_subs sys))%nat -> nth n (map mv (hs_pos sys)) v0 = mv (nth n (hs_pos sys) v0)).
    { intros n Hn. rewrite (nth_indep _ v0 (mv v0)) by (rewrite map_length; lia). apply map_nth. }
    rewrite !NM by assumption. destruct (C70_phases B (nth s (hs_pos sys) v0) (nth t (hs_pos sys) v0)) as (_ & _ & _ & _ & G). cbn zeta in G. unfold mv. rewrite G. 
    ring.
Qed.

(** Reversing the field: the local density is the same and the Green's function is transposed, if the
    energies and hoppings of the model are real numbers. *)
Theorem C100_field_reversed : forall (sys : hsys CX vec3) un ph simple cap B,
  wf_hsys sys -> hermitian_energies complex_type sys -> cap_fits CX vec3 sys cap -> (simple = true -> simple_bonds sys) -> hs_bounds sys = [] ->
  (forall n A i j, In (n, A) (hs_site sys) \/ In (n, A) (hs_hop sys) -> snd (m_at A i j : CX) = 0) ->
  let N := hamiltonian_size (hs_subs sys) in
  exists m m', ham_make cap complex_type sys [] [constant_magnetic_field B] un ph simple = Ok m /\
    ham_make cap complex_type sys [] [constant_magnetic_field (- B)] un ph simple = Ok m' /\
    forall kn lo hi broadening energy f al f' al' i j, offered kn -> lo < hi -> 0 < broadening ->
      can_run N (compress N m) lo hi al f -> can_run N (compress N m') lo hi al' f' -> (i < N)%nat -> (j < N)%nat ->
      (exists gs, length gs = length energy /\
        calc_greens f kn al lo hi (compress N m) i j broadening energy = Ok gs /\ calc_greens f' kn al' lo hi (compress N m') j i broadening energy = Ok gs) /\
      exists ys, length ys = length energy /\
        calc_ldos f kn al lo hi (compress N m) [i] 0 broadening energy = Ok ys /\ calc_ldos f' kn al' lo hi (compress N m') [i] 0 broadening energy = Ok ys.
Proof.
  intros sys un ph simple cap B W HE C S HB HR N.
  destruct (field_matrix sys un ph simple cap W HE C S HB B) as (_ & m & _ & E & Wf & Hh & P).
  destruct (field_matrix sys un ph simple cap W HE C S HB (- B)) as (_ & m' & _ & E' & Wf' & Hh' & P').
  fold N in Wf, Hh, P, Wf', Hh', P'.
  exists m, m'. split; [exact E|]. split; [exact E'|]. intros kn lo hi br energy f al f' al' i j Hk Hl Hb Hr Hr' Hi Hj.
  assert (REAL : forall x : CX, snd x = 0 -> kconj x = x) by (intros [x y] Q; cbn in Q; subst y; cbn; unfold cx_conj; cbn [fst snd]; f_equal; ring).
  assert (RE : forall reg id i j, (forall n A i j, In (n, A) reg -> snd (m_at A i j : CX) = 0) -> snd (m_at (snd (reg_entry reg id)) i j : CX) = 0).
  { intros reg id i0 j0 H. unfold reg_entry. destruct (nth_error reg id) as [(n & A)|] eqn:Q.
    - rewrite (nth_error_nth _ _ _ Q). cbn [snd]. apply (H n A). eapply nth_error_In. exact Q.
    - rewrite nth_overflow by (apply nth_error_None; exact Q). reflexivity. }
  assert (R1 : forall s i t j, kconj (element complex_type sys [] [] un ph s i t j) = element complex_type sys [] [] un ph s i t j).
  { intros s i0 t j0. apply REAL. unfold element. rewrite HB. rewrite ksum_nil, !snd_add.
    assert (Z1 : snd ((if (s =? t)%nat then m_at (site_matrix complex_type sys [] s) i0 j0 else k0) : CX) = 0).
    { destruct (s =? t)%nat; [|reflexivity]. unfold site_matrix. cbn [fold_left]. destruct (nth_error (hs_pos sys) s); cbn [cast_mat m_at]; apply RE; intros n A a b I; apply (HR n A); left; exact I. }
    assert (Z2 : forall l, snd (ksum (fun fc => hop_part complex_type (m_at (hop_matrix complex_type sys [] (fun p => p) (fst fc) (snd fc))) (snd fc) s i0 t j0) l : CX) = 0).
    { induction l as [|(q & c) l IH]; [reflexivity|]. rewrite ksum_cons, snd_add, IH. cbn [fst snd]. rewrite Rplus_0_r. unfold hop_part. rewrite snd_add.
      assert (M : forall a b, snd (m_at (hop_matrix complex_type sys [] (fun p => p) q c) a b : CX) = 0).
      { intros a b. unfold hop_matrix. cbn [fold_left]. destruct (nth_error (hs_pos sys) (fst c)), (nth_error (hs_pos sys) (snd c)); cbn [cast_mat m_at]; apply RE; intros n A a' b' I; apply (HR n A); right; exact I. }
      assert (K : forall x : CX, snd x = 0 -> snd (kconj x : CX) = 0) by (intros x Q; rewrite REAL; exact Q).
      destruct ((fst c =? s) && (snd c =? t))%nat, ((fst c =? t) && (snd c =? s))%nat; cbn [complex_type nt_conj]; rewrite ?M, ?K by apply M; cbn; ring. }
    rewrite Z1, Z2. cbn. ring. }
  apply (C100_reversed kn lo hi N (compress N m) (compress N m')); auto; [lia|].
  intros r c Hr0 Hc0.
  destruct (row_of_onto (hs_subs sys) r Hr0) as (s & i0 & Hs & Hi0 & ->). destruct (row_of_onto (hs_subs sys) c Hc0) as (t & j0 & Ht & Hj0 & ->).
  rewrite P, P', (kconj_mul CX), R1 by assumption. f_equal. apply C70_phases.
Qed.

(** A square of four sites with a quarter of a flux quantum through it: away from the x axis the
    hoppings are different, the density is the same. *)
Example C100_field_example : let B := phi0 * 10 ^ 18 / 4 in exists m m',
  ham_make 10 complex_type square_sys [] [constant_magnetic_field B] (fun p _ => p) (fun _ => k1) true = Ok m /\
  ham_make 10 complex_type (moved (0, 1, 0) square_sys) [] [constant_magnetic_field B] (fun p _ => p) (fun _ => k1) true = Ok m' /\
  coef (compress 4 m) 0 1 = re (-1) /\ coef (compress 4 m') 0 1 = mk 0 1 /\
  exists ys, length ys = 3%nat /\ calc_ldos Csr jackson plain (-2) 2 (compress 4 m) [2%nat] 0 (/ 10) [-1; 0; 1] = Ok ys /\ calc_ldos Csr jackson plain (-2) 2 (compress 4 m') [2%nat] 0 (/ 10) [-1; 0; 1] = Ok ys.
Proof.
  intros B.
  assert (W : wf_hsys square_sys).
  { split; [reflexivity|]. split; [reflexivity|]. split; [intros e [<-|[]]; cbn; lia|]. split; [|intros b []].
    split; [cbn; lia|]. intros f c H. cbn in H. destruct H as [H|[H|[H|[H|[]]]]]; injection H as <- <-; cbn; lia. }
  assert (C : cap_fits CX vec3 square_sys 10).
  { intros h [->|[]] f c H. cbn in H. destruct H as [H|[H|[H|[H|[]]]]]; injection H as <- <-; cbn; lia. }
  assert (S : simple_bonds square_sys) by (unfold simple_bonds; cbn; repeat constructor; cbn; intuition congruence).
  assert (HE : hermitian_energies complex_type square_sys).
  { intros e [<-|[]]. split; [reflexivity|]. split; [reflexivity|]. intros i j _ _. symmetry. exact (re_conj 0). }
  destruct (C100_field_origin square_sys (fun p _ => p) (fun _ => k1) true 10 B (0, 1, 0) W HE C (fun _ => S) eq_refl) as (m & m' & E & E' & D).
  assert (W' : wf_hsys (moved (0, 1, 0) square_sys)).
  { destruct W as (W1 & W2). split; [reflexivity|exact W2]. }
  destruct (field_matrix square_sys (fun p _ => p) (fun _ => k1) true 10 W HE C (fun _ => S) eq_refl B) as (_ & mb & _ & Eb & _ & _ & P).
  assert (mb = m) by congruence. subst mb.
  destruct (field_matrix (moved (0, 1, 0) square_sys) (fun p _ => p) (fun _ => k1) true 10 W' HE C (fun _ => S) eq_refl B) as (_ & mb & _ & Eb' & _ & _ & P').
  assert (mb = m') by congruence. subst mb.
  exists m, m'. split; [exact E|]. split; [exact E'|].
  assert (EL : element complex_type square_sys [] [] (fun p _ => p) (fun _ => k1) 0 0 1 0 = re (-1)).
  { cbv [element square_sys hs_hops hs_bounds hs_pos hs_subs hs_site hs_hop stored flat_map combine seq length hb_blocks map app ksum fold_right fst snd hop_part hop_matrix nth_error fold_left cast_mat m_at Nat.eqb andb reg_entry nth complex_type nt_cast nt_conj].
    cbn. unfold cx_add, cx_conj, re. cbn [fst snd]. f_equal; ring. }
  split.
  - change (coef (compress (hamiltonian_size (hs_subs square_sys)) m) (row_of (hs_subs square_sys) 0 0) (row_of (hs_subs square_sys) 1 0) = re (-1)).
    rewrite P, EL by (cbn; lia). cbn [nth hs_pos square_sys]. replace (peierls B (0, 0, 0) (1, 0, 0)) with (@k1 CX); [ring|].
    unfold peierls. rewrite <- expi_0. f_equal. unfold flux, strip, vx, vy, Rdiv. cbn [fst snd]. ring.
  - split.
    + change (coef (compress (hamiltonian_size (hs_subs (moved (0, 1, 0) square_sys))) m') (row_of (hs_subs (moved (0, 1, 0) square_sys)) 0 0) (row_of (hs_subs (moved (0, 1, 0) square_sys)) 1 0) = mk 0 1).
      rewrite P', element_moved, EL by (cbn; lia || reflexivity). cbn [nth hs_pos square_sys moved map].
      replace (peierls B _ _) with (kconj (expi (PI / 2))).
      * rewrite expi_quarter. cbn. unfold cx_mul, cx_conj, re, mk. cbn [fst snd]. f_equal; ring.
      * rewrite <- expi_neg. unfold peierls. f_equal. unfold B, flux, strip, MaterialsSpec.vadd, vx, vy. cbn [fst snd]. unfold phi0, hbar. field. pose proof PI_RGT_0. lra.
    + change 4%nat with (hamiltonian_size (hs_subs square_sys)).
      apply (D jackson (-2) 2 (/ 10) [-1; 0; 1] Csr plain Csr plain [2%nat] 0%nat 2%nat); try lra.
      * left. left. reflexivity.
      * apply plain_runs.
      * apply plain_runs.
      * intros j [<-|[]]. cbn. lia.
      * reflexivity.
Qed.
