(* C105: a local density computed with few moments sees only the surroundings of the site. *)
From Coq Require Import Reals Lra Ring.
From Verif Require Import Base Scalar Kpm KpmSpec KpmVec KpmOptimized KpmCheb KpmGram KpmCore KpmEll KpmFinal KpmStats RSum Cplx Spectral SpectralProofs SpectralLine PropsSpectral PropsCovariance LocalProofs.
Local Open Scope R_scope.
Add Ring CXloc : (k_ring CX).
Local Notation csr := (list (list (nat * CX))).

(** ** Moments *)
Section Moments.
  Variable R : scalar.
  Add Ring Rloc3 : (k_ring R).
  Local Open Scope k_scope.
  Lemma site_vector : forall N (X : dmat R) s n i, (s < N)%nat -> (i < N)%nat -> cv R N X (fun i => delta i s) n i = cheb N X n i s.
  Proof.
    intros N X s n i Hs Hi. rewrite cv_cheb by assumption. unfold ap. rewrite (ksum_single R _ N s Hs).
    - unfold delta. rewrite Nat.eqb_refl. ring.
    - intros j _ D. unfold delta. apply Nat.eqb_neq in D. rewrite D. ring.
  Qed.
  Lemma site_inner : forall N (v : nat -> R) s, (s < N)%nat -> inner R N (fun i => delta i s) v = v s.
  Proof.
    intros N v s Hs. unfold inner. rewrite (ksum_single R _ N s Hs).
    - unfold delta. rewrite Nat.eqb_refl, kconj_1. ring.
    - intros j _ D. unfold delta. apply Nat.eqb_neq in D. rewrite D, kconj_0. ring.
  Qed.
  Lemma scaled_hops : forall a b (H : dmat R) i j, i <> j -> scaled_dense a b H i j <> k0 -> H i j <> k0.
  Proof. intros a b H i j D Z E. apply Z. unfold scaled_dense, delta. apply Nat.eqb_neq in D. rewrite D, E. ring. Qed.
  Lemma scaled_same : forall a b N N' (H H' : dmat R) s s' r p, same_surroundings N N' H H' s s' r p ->
    forall i j, reach N H s r i -> reach N H s r j -> scaled_dense a b H' (p i) (p j) = scaled_dense a b H i j.
  Proof.
    intros a b N N' H H' s s' r p SU i j Wi Wj. unfold scaled_dense. rewrite (su_same _ _ _ _ _ _ _ _ SU) by assumption. unfold delta.
    destruct (Nat.eqb_spec i j) as [->|D]; [rewrite Nat.eqb_refl; reflexivity|].
    destruct (Nat.eqb_spec (p i) (p j)) as [E|_]; [|reflexivity]. exfalso. apply D. apply (su_inj _ _ _ _ _ _ _ _ SU); assumption.
  Qed.
End Moments.

(** The scaled Hamiltonians of two systems, of any sizes, which look the same up to [r] hops from a
    site have the same diagonal moments up to number 2r+1 there, and the same moments between that
    site and any site of the surroundings up to number r+1. *)
Theorem C105_moments : forall (R : scalar) N N' (H H' : nat -> nat -> R) s s' r p a b, (s < N)%nat -> (s' < N')%nat ->
  kconj a = a -> kconj b = b -> hermitian N H -> hermitian N' H' -> same_surroundings N N' H H' s s' r p ->
  (forall n, (n <= 2 * r + 1)%nat -> cheb N' (scaled_dense a b H') n s' s' = cheb N (scaled_dense a b H) n s s) /\
  (forall n j, (n <= r + 1)%nat -> reach N H s r j -> cheb N' (scaled_dense a b H') n (p j) s' = cheb N (scaled_dense a b H) n j s).
Proof.
  intros R N N' H H' s s' r p a b Hs Hs' Ha Hb Hh Hh' SU.
  assert (K : forall M (G : nat -> nat -> R), hermitian M G -> hermitian M (scaled_dense a b G)).
  { intros M G HG i j Hi Hj. unfold scaled_dense, delta. rewrite (kconj_mul R), (kconj_sub R), (kconj_mul R), Ha, Hb, HG by assumption.
    rewrite (Nat.eqb_sym j i). destruct (i =? j)%nat; [rewrite kconj_1|rewrite kconj_0]; reflexivity. }
  split.
  - intros n Hn. rewrite <- !site_vector by assumption. rewrite <- (site_inner R N' (cv R N' _ _ n) s' Hs'), <- (site_inner R N (cv R N _ _ n) s Hs).
    apply (moment_local R N N' H H' _ _ s s' r p Hs Hs' SU); auto; [apply scaled_hops|apply scaled_hops|apply (scaled_same R a b N N' H H' s s' r p SU)|lia].
  - intros n j Hn Wj. rewrite <- !site_vector; try assumption; [|exact (reach_lt R N H s r j Hs Wj)|exact (su_in _ _ _ _ _ _ _ _ SU j Wj)].
    apply (cv_local R N N' H H' _ _ s s' r p Hs Hs' SU); auto; [apply scaled_hops|apply scaled_hops|apply (scaled_same R a b N N' H H' s s' r p SU)|lia].
Qed.

(** ** Densities and Green's functions *)
Lemma density_few : forall g s M m m' E, (forall n, (n < M)%nat -> m' n = m n) -> density_of g s M m' E = density_of g s M m E.
Proof.
  intros g s M m m' E H. unfold density_of. destruct (Rlt_dec _ _); [|reflexivity]. do 2 f_equal.
  assert (A : forall K, (K <= M)%nat -> rsum (fun n => weight0 n * m' n * g M n * cos (INR n * acos (scaled s E))) K = rsum (fun n => weight0 n * m n * g M n * cos (INR n * acos (scaled s E))) K).
  { induction K as [|K IH]; intros L; [reflexivity|]. cbn [rsum]. rewrite IH, H by lia. reflexivity. }
  apply A. lia.
Qed.
Lemma greens_few : forall g s M m m' E, (forall n, (n < M)%nat -> m' n = m n) -> greens_of g s M m' E = greens_of g s M m E.
Proof.
  intros g s M m m' E H. unfold greens_of. do 2 f_equal. apply map_ext_in. intros n Hn. apply in_seq in Hn. rewrite H by lia. reflexivity.
Qed.

(** Two systems that look the same up to [r] hops from a site have the same local density at every
    energy, whatever the algorithms and formats, as long as the broadening calls for no more than
    2r+2 moments. *)
Theorem C105_ldos : forall kn lo hi N N' (h h' : csr) s s' r p broadening energy f al f' al' idx k idx' k' num, offered kn ->
  wf_csr N h -> wf_csr N' h' -> hermitian N (coef h) -> hermitian N' (coef h') -> lo < hi -> 0 < broadening ->
  can_run N h lo hi al f -> can_run N' h' lo hi al' f' -> same_surroundings N N' (coef h) (coef h') s s' r p ->
  (forall j, In j idx -> (j < N)%nat) -> (forall j, In j idx' -> (j < N')%nat) -> nth_error idx k = Some s -> nth_error idx' k' = Some s' ->
  kn_required kn (broadening / s_a (make_scale lo hi)) = Ok num -> (num <= 2 * r + 2)%nat ->
  exists ys, length ys = length energy /\
    calc_ldos f kn al lo hi h idx k broadening energy = Ok ys /\ calc_ldos f' kn al' lo hi h' idx' k' broadening energy = Ok ys.
Proof.
  intros kn lo hi N N' h h' s s' r p br energy f al f' al' idx k idx' k' num Hk W W' Hh Hh' Hl Hb Hr Hr' SU Hi Hi' Ek Ek' En Hn.
  destruct (offered_moments kn _ Hk (broadening_pos lo hi br Hl Hb)) as (num' & En' & N2 & N4). assert (num' = num) as -> by congruence.
  assert (Hs : (s < N)%nat) by (apply Hi; eapply nth_error_In; exact Ek). assert (Hs' : (s' < N')%nat) by (apply Hi'; eapply nth_error_In; exact Ek').
  eexists. split; [|split; [exact (ldos_value f kn al lo hi N h ltac:(lia) W Hr Hh idx k s br energy num En N2 N4 Hi Ek)|]]; [apply map_length|].
  rewrite (ldos_value f' kn al' lo hi N' h' ltac:(lia) W' Hr' Hh' idx' k' s' br energy num En N2 N4 Hi' Ek'). f_equal. apply map_ext. intros E. apply density_few.
  intros n Hn'. unfold mu. rewrite !mu_site by assumption. f_equal.
  apply (C105_moments CX N N' (coef h) (coef h') s s' r p _ _ Hs Hs' (re_conj _) (re_conj _) Hh Hh' SU). lia.
Qed.
(** So is the Green's function between the site and a site of its surroundings, with up to r+2 moments. *)
Theorem C105_greens : forall kn lo hi N N' (h h' : csr) s s' r p broadening energy f al f' al' j num, offered kn ->
  wf_csr N h -> wf_csr N' h' -> hermitian N (coef h) -> hermitian N' (coef h') -> lo < hi -> 0 < broadening ->
  can_run N h lo hi al f -> can_run N' h' lo hi al' f' -> same_surroundings N N' (coef h) (coef h') s s' r p ->
  (s < N)%nat -> (s' < N')%nat -> reach N (coef h) s r j ->
  kn_required kn (broadening / s_a (make_scale lo hi)) = Ok num -> (num <= r + 2)%nat ->
  exists gs, length gs = length energy /\
    calc_greens f kn al lo hi h s j broadening energy = Ok gs /\ calc_greens f' kn al' lo hi h' s' (p j) broadening energy = Ok gs.
Proof.
  intros kn lo hi N N' h h' s s' r p br energy f al f' al' j num Hk W W' Hh Hh' Hl Hb Hr Hr' SU Hs Hs' Wj En Hn.
  destruct (offered_moments kn _ Hk (broadening_pos lo hi br Hl Hb)) as (num' & En' & N2 & N4). assert (num' = num) as -> by congruence.
  assert (Hj : (j < N)%nat) by exact (reach_lt CX N (coef h) s r j Hs Wj). pose proof (su_in _ _ _ _ _ _ _ _ SU j Wj) as Hj'.
  eexists. split; [|split; [exact (greens_value f kn al lo hi N h s j br energy num ltac:(lia) W Hr Hh En N2 N4 Hs Hj)|]]; [apply map_length|].
  rewrite (greens_value f' kn al' lo hi N' h' s' (p j) br energy num ltac:(lia) W' Hr' Hh' En N2 N4 Hs' Hj'). f_equal. apply map_ext. intros E. apply greens_few.
  intros n Hn'. apply (C105_moments CX N N' (coef h) (coef h') s s' r p _ _ Hs Hs' (re_conj _) (re_conj _) Hh Hh' SU); [lia|exact Wj].
Qed.

(** With the Jackson kernel: a broadening of at least pi a / (2r - 2), with [a] half the (padded) width of
    the spectrum, hides all that is more than [r] hops away. *)
Theorem C105_broadening : forall lo hi N N' (h h' : csr) s s' r p broadening energy f al f' al',
  wf_csr N h -> wf_csr N' h' -> hermitian N (coef h) -> hermitian N' (coef h') -> lo < hi -> 0 < broadening ->
  can_run N h lo hi al f -> can_run N' h' lo hi al' f' -> same_surroundings N N' (coef h) (coef h') s s' r p ->
  (s < N)%nat -> (s' < N')%nat -> PI * ((hi - lo) / 2 * (101 / 100)) / broadening <= 2 * INR r - 2 ->
  exists ys, length ys = length energy /\
    calc_ldos f jackson al lo hi h [s] 0 broadening energy = Ok ys /\ calc_ldos f' jackson al' lo hi h' [s'] 0 broadening energy = Ok ys.
Proof.
  intros lo hi N N' h h' s s' r p br energy f al f' al' W W' Hh Hh' Hl Hb Hr Hr' SU Hs Hs' HB.
  assert (Sa : s_a (make_scale lo hi) = (hi - lo) / 2 * (101 / 100)) by (unfold make_scale, tolerance; cbn [s_a]; field).
  pose proof (broadening_pos lo hi br Hl Hb) as Bp.
  destruct (required_ok PI (br / s_a (make_scale lo hi)) PI_RGT_0 Bp) as (num & En & _ & _ & _ & Up).
  assert (Q : PI / (br / s_a (make_scale lo hi)) = PI * ((hi - lo) / 2 * (101 / 100)) / br).
  { rewrite Sa. field. repeat split; lra. }
  rewrite Q in Up. assert (Nn : (num <= 2 * r + 2)%nat).
  { apply INR_le. rewrite plus_INR, mult_INR. change (INR 2) with (1 + 1). lra. }
  apply (C105_ldos jackson lo hi N N' h h' s s' r p br energy f al f' al' [s] 0 [s'] 0 num); auto.
  - left. left. reflexivity.
  - intros j [<-|[]]. exact Hs.
  - intros j [<-|[]]. exact Hs'.
Qed.

(** Changes of a Hamiltonian that leave the columns of all sites up to [r] hops away alone. *)
Lemma unchanged_near : forall (R : scalar) N (H H' : nat -> nat -> R) s r, (s < N)%nat -> (forall i j, (i < N)%nat -> reach N H s r j -> H' i j = H i j) ->
  same_surroundings N N H H' s s r (fun i => i).
Proof.
  intros R N H H' s r Hs E. split; auto.
  - intros i Wi. exact (reach_lt R N H s r i Hs Wi).
  - intros i W. exists i. split; [|reflexivity].
    assert (A : forall n, (n <= r)%nat -> forall i, reach N H' s n i -> reach N H s n i); [|apply A; auto].
    induction n as [|n IH]; intros L q Wq; inversion Wq as [|n0 i0 W0|n0 i0 j W0 Hi0 Hne]; subst; [constructor|apply reach_same, IH; auto; lia|].
    assert (Wj : reach N H s n j) by (apply IH; auto; lia). apply reach_hop with (j := j); auto.
    rewrite <- E; auto. apply reach_mono with (n := n); [lia|exact Wj].
  - intros i j Wi Wj. apply E; auto. exact (reach_lt R N H s r i Hs Wi).
Qed.
(** Defects, fields and edges beyond [r] hops leave the local density alone. *)
Theorem C105_far : forall lo hi N (h h' : csr) s r broadening energy f al f' al',
  wf_csr N h -> wf_csr N h' -> hermitian N (coef h) -> hermitian N (coef h') -> lo < hi -> 0 < broadening ->
  can_run N h lo hi al f -> can_run N h' lo hi al' f' -> (s < N)%nat ->
  (forall i j, (i < N)%nat -> reach N (coef h) s r j -> coef h' i j = coef h i j) ->
  PI * ((hi - lo) / 2 * (101 / 100)) / broadening <= 2 * INR r - 2 ->
  exists ys, length ys = length energy /\
    calc_ldos f jackson al lo hi h [s] 0 broadening energy = Ok ys /\ calc_ldos f' jackson al' lo hi h' [s] 0 broadening energy = Ok ys.
Proof.
  intros lo hi N h h' s r br energy f al f' al' W W' Hh Hh' Hl Hb Hr Hr' Hs E HB.
  apply (C105_broadening lo hi N N h h' s s r (fun i => i)); auto. apply unchanged_near; assumption.
Qed.

(** ** Chains *)
Definition chain_row (R : scalar) (n i : nat) : list (nat * R) :=
  (match i with O => [] | S k => [(k, k1)] end) ++ (if (S i <? n)%nat then [(S i, k1)] else []).
Definition chain (R : scalar) (n : nat) : list (list (nat * R)) := map (chain_row R n) (seq 0 n).
Lemma chain_entries : forall R n i, (i < n)%nat ->
  entries (chain R n) i = (match i with O => [] | S k => [(k, k1)] end) ++ (if (S i <? n)%nat then [(S i, k1)] else []).
Proof.
  intros R n i Hi. unfold entries, chain. rewrite (nth_indep _ [] (chain_row R n 0)) by (rewrite map_length, seq_length; exact Hi).
  rewrite (map_nth (chain_row R n)), seq_nth by exact Hi. reflexivity.
Qed.
Lemma chain_past : forall R n i, (n <= i)%nat -> entries (chain R n) i = [].
Proof. intros R n i Hi. unfold entries. apply nth_overflow. unfold chain. rewrite map_length, seq_length. exact Hi. Qed.
Lemma chain_coef : forall R n i j, (i < n)%nat -> (j < n)%nat -> coef (chain R n) i j = if ((i =? S j) || (j =? S i))%nat then k1 else k0.
Proof.
  intros R n i j Hi Hj. unfold coef. rewrite chain_entries by exact Hi. rewrite ksum_app.
  destruct (Nat.ltb_spec (S i) n); destruct i as [|k]; rewrite ?ksum_cons, ?ksum_nil; cbn [fst snd].
  - rewrite (Nat.eqb_sym j). cbn [Nat.eqb orb]. destruct j as [|[|j]]; cbn [Nat.eqb]; rewrite ?kadd_0_l, ?kadd_0_r; reflexivity.
  - destruct (Nat.eqb_spec k j), (Nat.eqb_spec (S (S k)) j), (Nat.eqb_spec (S k) (S j)), (Nat.eqb_spec j (S (S k))); try lia; cbn [orb]; rewrite ?kadd_0_l, ?kadd_0_r; reflexivity.
  - assert (j = 0)%nat as -> by lia. apply kadd_0_l.
  - destruct (Nat.eqb_spec k j), (Nat.eqb_spec (S k) (S j)), (Nat.eqb_spec j (S (S k))); try lia; cbn [orb]; rewrite ?kadd_0_l, ?kadd_0_r; reflexivity.
Qed.
Lemma chain_wf : forall R n, wf_csr n (chain R n).
Proof.
  intros R n. split; [unfold chain; rewrite map_length, seq_length; reflexivity|]. split.
  - intros i e He. destruct (le_lt_dec n i) as [L|L]; [rewrite chain_past in He by exact L; contradiction|]. rewrite chain_entries in He by exact L.
    apply in_app_or in He. destruct He as [He|He]; [destruct i; [contradiction|destruct He as [<-|[]]; cbn; lia]|].
    destruct (Nat.ltb_spec (S i) n); [destruct He as [<-|[]]; cbn; lia|contradiction].
  - intros i. destruct (le_lt_dec n i) as [L|L]; [rewrite chain_past by exact L; constructor|]. rewrite chain_entries by exact L.
    destruct i, (S _ <? n)%nat; cbn; repeat constructor; cbn; intros F; repeat destruct F as [F|F]; try lia; contradiction.
Qed.
Lemma chain_hermitian : forall R n, hermitian n (coef (chain R n)).
Proof.
  intros R n i j Hi Hj. rewrite !chain_coef by assumption. rewrite (Bool.orb_comm (j =? S i)%nat). destruct (_ || _); [apply kconj_1|apply kconj_0].
Qed.
Lemma chain_reach : forall R n s r i, (s < n)%nat -> reach n (coef (chain R n)) s r i -> (i <= s + r /\ s <= i + r)%nat.
Proof.
  intros R n s r i Hs W. induction W as [|m q W IH|m q j W IH Hq Z]; [lia|lia|].
  pose proof (reach_lt R n (coef (chain R n)) s m j Hs W) as Hj. rewrite chain_coef in Z by assumption.
  destruct (Nat.eqb_spec q (S j)), (Nat.eqb_spec j (S q)); cbn [orb] in Z; try lia. contradiction.
Qed.
Lemma chain_walk : forall R n s, (s < n)%nat -> @k1 R <> k0 -> forall d i, (i = s + d \/ s = i + d)%nat -> (i < n)%nat -> reach n (coef (chain R n)) s d i.
Proof.
  intros R n s Hs Z. induction d as [|d IH]; intros i Hi Hn.
  - assert (i = s) as -> by lia. constructor.
  - destruct Hi as [E|E].
    + apply reach_hop with (j := (s + d)%nat); [apply IH; lia|exact Hn|]. rewrite chain_coef by lia. destruct (Nat.eqb_spec i (S (s + d))); [exact Z|lia].
    + apply reach_hop with (j := S i); [apply IH; lia|exact Hn|]. rewrite chain_coef by lia. rewrite Nat.eqb_refl, Bool.orb_true_r. exact Z.
Qed.
(** The middles of chains of different lengths look alike. *)
Lemma chain_middle : forall R m m' r, (r <= m)%nat -> (r <= m')%nat -> @k1 R <> k0 ->
  same_surroundings (2 * m + 1) (2 * m' + 1) (coef (chain R (2 * m + 1))) (coef (chain R (2 * m' + 1))) m m' r (fun i => i + m' - m)%nat.
Proof.
  intros R m m' r L L' Z.
  assert (B : forall i, reach (2 * m + 1) (coef (chain R (2 * m + 1))) m r i -> (i <= m + r /\ m <= i + r)%nat) by (intros i W; apply (chain_reach R (2 * m + 1)); [lia|exact W]).
  split.
  - lia.
  - intros i W. apply B in W. lia.
  - intros i j Wi Wj E. apply B in Wi, Wj. lia.
  - intros i W. apply (chain_reach R (2 * m' + 1)) in W; [|lia]. exists (i + m - m')%nat. split; [|lia].
    destruct (le_lt_dec m (i + m - m')) as [D|D].
    + apply reach_mono with (n := (i - m')%nat); [lia|]. apply chain_walk; auto; lia.
    + apply reach_mono with (n := (m' - i)%nat); [lia|]. apply chain_walk; auto; lia.
  - intros i j Wi Wj. apply B in Wi, Wj. rewrite !chain_coef by lia.
    replace (i + m' - m =? S (j + m' - m))%nat with (i =? S j)%nat; [replace (j + m' - m =? S (i + m' - m))%nat with (j =? S i)%nat; [reflexivity|]|].
    + destruct (Nat.eqb_spec j (S i)), (Nat.eqb_spec (j + m' - m) (S (i + m' - m))); lia || reflexivity.
    + destruct (Nat.eqb_spec i (S j)), (Nat.eqb_spec (i + m' - m) (S (j + m' - m))); lia || reflexivity.
Qed.

(** Middles of chains of 13 and of 2001 sites at broadening 1: the same local density. *)
Example C105_example : exists ys, length ys = 2%nat /\
  calc_ldos Csr jackson plain (- (2)) 2 (chain CX (2 * 6 + 1)) [6%nat] 0 1 [0; 1] = Ok ys /\
  calc_ldos Csr jackson plain (- (2)) 2 (chain CX (2 * (10 * (10 * 10)) + 1)) [(10 * (10 * 10))%nat] 0 1 [0; 1] = Ok ys.
Proof.
  pose proof PI_4.
  apply (C105_broadening (- (2)) 2 (2 * 6 + 1) (2 * (10 * (10 * 10)) + 1) _ _ 6 (10 * (10 * 10)) 6 (fun i => i + 10 * (10 * 10) - 6)%nat 1 [0; 1] Csr plain Csr plain);
    auto using chain_wf, chain_hermitian, plain_runs; try lra; try lia.
  - apply chain_middle; [lia|lia|]. intros E. apply (f_equal fst) in E. cbn in E. lra.
  - change (INR 6) with (1 + 1 + 1 + 1 + 1 + 1). lra.
Qed.
(** The count is exact: the middles of chains of 5 and of 7 sites differ in the moment number 2*2+2. *)
Example C105_sharp :
  map (fun n => cheb 5 (coef (chain zscalar 5)) n 2%nat 2%nat) (seq 0 6) = map (fun n => cheb 7 (coef (chain zscalar 7)) n 3%nat 3%nat) (seq 0 6) /\
  cheb 5 (coef (chain zscalar 5)) 6 2%nat 2%nat <> cheb 7 (coef (chain zscalar 7)) 6 3%nat 3%nat.
Proof. split; [vm_compute; reflexivity|vm_compute; discriminate]. Qed.
