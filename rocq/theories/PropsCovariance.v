(* C100: symmetries of a Hamiltonian are symmetries of the computed densities and Green's functions. *)
From Verif Require Import Base Scalar Kpm KpmSpec KpmVec KpmOptimized KpmCheb KpmGram KpmCore KpmEll KpmFinal RSum Cplx Spectral SpectralProofs SpectralLine PropsSpectral ConductivityProofs CovarianceProofs.
From Coq Require Import Reals Lra Ring.
Local Open Scope R_scope.
Add Ring CXcov2 : (k_ring CX).
Local Notation csr := (list (list (nat * CX))).
Local Notation dm := (nat -> nat -> CX).

(** ** Specification *)
(** A one-to-one numbering of the same rows, and a phase per row. *)
Definition relabelling (N : nat) (p : nat -> nat) (u : nat -> CX) : Prop :=
  (forall i, (i < N)%nat -> (p i < N)%nat) /\ (forall i j, (i < N)%nat -> (j < N)%nat -> p i = p j -> i = j) /\
  forall i, (i < N)%nat -> abs2 (u i) = 1.
(** [B] is [sign] times [A] with other numbers and phases. *)
Definition carried (N : nat) (p : nat -> nat) (u : nat -> CX) (sign : R) (A B : dm) : Prop :=
  relabelling N p u /\ forall i j, (i < N)%nat -> (j < N)%nat -> B (p i) (p j) = kmul (re sign) (kmul (kmul (u i) (A i j)) (kconj (u j))).

Lemma phase_unit : forall u : CX, abs2 u = 1 -> kmul u (kconj u) = k1.
Proof. intros u H. transitivity (kmul (kconj u) u); [ring|]. rewrite abs2_conj, H. reflexivity. Qed.
Lemma relabelling_renumbering : forall N p u, relabelling N p u -> renumbering N p.
Proof. intros N p u (H1 & H2 & _). split; assumption. Qed.

Lemma carried_hermitian : forall N p u sg A B, carried N p u sg A B -> hermitian N A -> hermitian N B.
Proof.
  intros N p u sg A B (HR & HB) HA i j Hi Hj. pose proof (relabelling_renumbering N p u HR) as RN.
  destruct (renumbering_onto N p i RN Hi) as (i' & Hi' & <-). destruct (renumbering_onto N p j RN Hj) as (j' & Hj' & <-).
  rewrite !HB, !(kconj_mul CX), re_conj, (kconj_conj CX), HA by assumption. ring.
Qed.

Lemma carried_scaled : forall N p u sg A B a b, sg * sg = 1 -> carried N p u sg A B ->
  carried N p u sg (scaled_dense (re a) (re b) A) (scaled_dense (re a) (re (sg * b)) B).
Proof.
  intros N p u sg A B a b Hs (HR & HB). split; [exact HR|]. intros i j Hi Hj. unfold scaled_dense. rewrite HB by assumption. unfold delta.
  destruct HR as (_ & Inj & Hu). destruct (Nat.eqb_spec i j) as [->|D].
  - rewrite Nat.eqb_refl. pose proof (phase_unit (u j) (Hu j Hj)) as U. rewrite <- re_mul.
    transitivity (kmul (re sg) (kmul (re a) (ksub (kmul (kmul (u j) (A j j)) (kconj (u j))) (kmul (re b) (kmul (u j) (kconj (u j))))))); [rewrite U; ring|ring].
  - destruct (Nat.eqb_spec (p i) (p j)) as [E|_]; [apply Inj in E; auto; contradiction|]. ring.
Qed.

Section Moments.
  Variables (N : nat) (p : nat -> nat) (u : nat -> CX) (sg : R) (X Y : dm).
  Hypothesis Hsg : sg * sg = 1.
  Hypothesis HC : carried N p u sg X Y.
  Lemma cheb_move : forall n i j, (i < N)%nat -> (j < N)%nat -> cheb N Y n (p i) (p j) = kmul (re (sg ^ n)) (kmul (kmul (u i) (cheb N X n i j)) (kconj (u j))).
  Proof using Hsg HC.
    intros n i j Hi Hj. destruct HC as (HR & HB). rewrite (cheb_carried N X Y p u (re sg)); auto.
    - rewrite power_re. reflexivity.
    - exact (relabelling_renumbering N p u HR).
    - intros k Hk. apply phase_unit, HR, Hk.
    - rewrite re_mul, Hsg. reflexivity.
  Qed.
  Lemma mu_site_move : forall n i, (i < N)%nat -> mu N Y (at_site (p i)) n = sg ^ n * mu N X (at_site i) n.
  Proof using Hsg HC.
    intros n i Hi. unfold mu. assert (Hp : (p i < N)%nat) by (apply HC; exact Hi). rewrite !mu_site by assumption. rewrite cheb_move by assumption.
    rewrite fst_re_mul. f_equal. transitivity (fst (kmul (cheb N X n i i) (kmul (u i) (kconj (u i)))) : R); [f_equal; ring|].
    rewrite phase_unit by (apply HC; exact Hi). f_equal. ring.
  Qed.
  Lemma mu_vec_move : forall v w n, (forall i, (i < N)%nat -> w (p i) = kmul (u i) (v i)) -> mu N Y w n = sg ^ n * mu N X v n.
  Proof using Hsg HC.
    intros v w n W. destruct HC as (HR & HB). unfold mu, mom. rewrite !inner_cheb, (braket_carried N X Y p u (re sg)) with (v := v); auto.
    - rewrite power_re. apply fst_re_mul.
    - exact (relabelling_renumbering N p u HR).
    - intros k Hk. apply phase_unit, HR, Hk.
    - rewrite re_mul, Hsg. reflexivity.
  Qed.
End Moments.

Lemma density_opposite : forall g s s' M m m' E, s_a s' = s_a s -> scaled s' (- E) = - scaled s E -> -1 < scaled s E < 1 ->
  (forall n, m' n = (-1) ^ n * m n) -> density_of g s' M m' (- E) = density_of g s M m E.
Proof.
  intros g s s' M m m' E Ea Ex Hx Hm. unfold density_of. rewrite Ex, Ea. replace (1 - - scaled s E * - scaled s E) with (1 - scaled s E * scaled s E) by ring.
  destruct (Rlt_dec 0 (1 - scaled s E * scaled s E)); [|reflexivity]. do 2 f_equal. apply rsum_ext. intros n _. rewrite Hm.
  change (cos (INR n * acos (- scaled s E))) with (tcos (- scaled s E) n). rewrite cheb_opposite_cos by lra. unfold tcos.
  transitivity (((-1) ^ n * (-1) ^ n) * (weight0 n * m n * g M n * cos (INR n * acos (scaled s E)))); [ring|]. rewrite sign_square. ring.
Qed.
Lemma density_same : forall g s M m m' E, (forall n, m' n = m n) -> density_of g s M m' E = density_of g s M m E.
Proof. intros g s M m m' E H. unfold density_of. destruct (Rlt_dec _ _); [|reflexivity]. do 2 f_equal. apply rsum_ext. intros n _. rewrite H. reflexivity. Qed.

(** ** Renumbering and phases *)
(** Two Hamiltonians that differ by the numbering of the rows and by phases of the orbitals have the
    same local density at corresponding orbitals, whatever the algorithms and formats used. *)
Theorem C100_ldos : forall kn lo hi N p u (h h' : csr) broadening energy f al f' al' idx k idx' k' i, offered kn ->
  (0 < N)%nat -> wf_csr N h -> wf_csr N h' -> hermitian N (coef h) -> lo < hi -> 0 < broadening ->
  can_run N h lo hi al f -> can_run N h' lo hi al' f' -> carried N p u 1 (coef h) (coef h') ->
  (forall j, In j idx -> (j < N)%nat) -> (forall j, In j idx' -> (j < N)%nat) -> nth_error idx k = Some i -> nth_error idx' k' = Some (p i) ->
  exists ys, length ys = length energy /\
    calc_ldos f kn al lo hi h idx k broadening energy = Ok ys /\ calc_ldos f' kn al' lo hi h' idx' k' broadening energy = Ok ys.
Proof.
  intros kn lo hi N p u h h' br energy f al f' al' idx k idx' k' i Hk HN W W' Hh Hl Hb Hr Hr' HC Hi Hi' Ek Ek'.
  destruct (offered_moments kn _ Hk (broadening_pos lo hi br Hl Hb)) as (num & En & N2 & N4).
  pose proof (carried_hermitian N p u 1 _ _ HC Hh) as Hh'.
  eexists. split; [|split; [exact (ldos_value f kn al lo hi N h HN W Hr Hh idx k i br energy num En N2 N4 Hi Ek)|]]; [apply map_length|].
  rewrite (ldos_value f' kn al' lo hi N h' HN W' Hr' Hh' idx' k' (p i) br energy num En N2 N4 Hi' Ek'). f_equal. apply map_ext. intros E. apply density_same.
  intros n. rewrite (mu_site_move N p u 1 (scaled_dense (re (/ s_a (make_scale lo hi))) (re (s_b (make_scale lo hi))) (coef h))); [rewrite pow1; ring|ring| |apply Hi; eapply nth_error_In; exact Ek].
  replace (s_b (make_scale lo hi)) with (1 * s_b (make_scale lo hi)) at 2 by ring. apply carried_scaled; [ring|exact HC].
Qed.
(** So has the density of states with correspondingly numbered and turned random vectors. *)
Theorem C100_dos : forall kn lo hi N p u (h h' : csr) broadening energy f al f' al' r r', offered kn ->
  (0 < N)%nat -> wf_csr N h -> wf_csr N h' -> hermitian N (coef h) -> lo < hi -> 0 < broadening ->
  can_run N h lo hi al f -> can_run N h' lo hi al' f' -> carried N p u 1 (coef h) (coef h') ->
  length r = N -> length r' = N -> (forall i, (i < N)%nat -> vec r' (p i) = kmul (u i) (vec r i)) ->
  exists ys, length ys = length energy /\
    calc_dos f kn al lo hi h r broadening energy = Ok ys /\ calc_dos f' kn al' lo hi h' r' broadening energy = Ok ys.
Proof.
  intros kn lo hi N p u h h' br energy f al f' al' r r' Hk HN W W' Hh Hl Hb Hr Hr' HC Lr Lr' Er.
  destruct (offered_moments kn _ Hk (broadening_pos lo hi br Hl Hb)) as (num & En & N2 & N4).
  pose proof (carried_hermitian N p u 1 _ _ HC Hh) as Hh'.
  eexists. split; [|split; [exact (dos_value f kn al lo hi N h HN W Hr Hh r br energy num En N2 N4 Lr)|]]; [apply map_length|].
  rewrite (dos_value f' kn al' lo hi N h' HN W' Hr' Hh' r' br energy num En N2 N4 Lr'). f_equal. apply map_ext. intros E. apply density_same.
  intros n. rewrite (mu_vec_move N p u 1 (scaled_dense (re (/ s_a (make_scale lo hi))) (re (s_b (make_scale lo hi))) (coef h)) _ ltac:(ring)) with (v := vec r); [rewrite pow1; ring| |exact Er].
  replace (s_b (make_scale lo hi)) with (1 * s_b (make_scale lo hi)) at 2 by ring. apply carried_scaled; [ring|exact HC].
Qed.

(** Green's function from its moments, before halving and damping *)
Definition greens_of (g : nat -> nat -> R) (s : scale) (M : nat) (m : nat -> CX) (E : R) : option CX :=
  greens_function s (damp CX (fun N n => re (g N n)) (map (fun n => halved cx_half n (m n)) (seq 0 M))) E.
Lemma greens_value : forall f kn al lo hi N h i j br energy num, (0 < N)%nat -> wf_csr N h -> can_run N h lo hi al f -> hermitian N (coef h) ->
  kn_required kn (br / s_a (make_scale lo hi)) = Ok num -> (2 <= num)%nat -> ((num - 2) mod 4 = 0)%nat -> (i < N)%nat -> (j < N)%nat ->
  calc_greens f kn al lo hi h i j br energy
  = Ok (map (greens_of (kn_g kn) (make_scale lo hi) num (fun n => cheb N (scaled_dense (re (/ s_a (make_scale lo hi))) (re (s_b (make_scale lo hi))) (coef h)) n j i)) energy).
Proof.
  intros f kn al lo hi N h i j br energy num HN W Hr Hh En N2 N4 Hi Hj. unfold calc_greens. rewrite En. cbn [obind].
  rewrite (f_greens CX cx_half cx_half_ok _ _ N h HN W al f Hr num i [j] N2 N4 Hi); [reflexivity|discriminate|intros c [<-|[]]; exact Hj|apply scaled_hermitian; exact Hh].
Qed.
Lemma greens_scaled : forall g s M m m' c E, (forall n, m' n = kmul c (m n)) -> greens_of g s M m' E = option_map (kmul c) (greens_of g s M m E).
Proof.
  intros g s M m m' c E H. unfold greens_of, greens_function. destruct (Rlt_dec _ _); [|reflexivity]. cbn [option_map]. f_equal. rewrite !damp_length.
  set (z := mk 0 _). rewrite (ksum_ext CX _ (fun n => kmul c (kmul (nth n (damp CX (fun N n => re (g N n)) (map (fun n => halved cx_half n (m n)) (seq 0 M))) k0) (mk (cos (INR n * acos (scaled s E))) (- sin (INR n * acos (scaled s E))))))).
  - rewrite ksum_mul_l. ring.
  - intros n Hn. apply in_seq in Hn. rewrite !(damp_nth _ _ M n) by lia. rewrite H. destruct n; cbn [halved]; ring.
Qed.

Theorem C100_greens : forall kn lo hi N p u (h h' : csr) broadening energy f al f' al' i j, offered kn ->
  (0 < N)%nat -> wf_csr N h -> wf_csr N h' -> hermitian N (coef h) -> lo < hi -> 0 < broadening ->
  can_run N h lo hi al f -> can_run N h' lo hi al' f' -> carried N p u 1 (coef h) (coef h') -> (i < N)%nat -> (j < N)%nat ->
  exists gs, length gs = length energy /\ calc_greens f kn al lo hi h i j broadening energy = Ok gs /\
    calc_greens f' kn al' lo hi h' (p i) (p j) broadening energy = Ok (map (option_map (fun g => kmul (kmul (u j) (kconj (u i))) g)) gs).
Proof.
  intros kn lo hi N p u h h' br energy f al f' al' i j Hk HN W W' Hh Hl Hb Hr Hr' HC Hi Hj.
  destruct (offered_moments kn _ Hk (broadening_pos lo hi br Hl Hb)) as (num & En & N2 & N4).
  pose proof (carried_hermitian N p u 1 _ _ HC Hh) as Hh'.
  eexists. split; [|split; [exact (greens_value f kn al lo hi N h i j br energy num HN W Hr Hh En N2 N4 Hi Hj)|]]; [apply map_length|].
  rewrite (greens_value f' kn al' lo hi N h' (p i) (p j) br energy num HN W' Hr' Hh' En N2 N4) by (apply HC; assumption). f_equal. rewrite map_map. apply map_ext. intros E.
  apply greens_scaled. intros n. rewrite (cheb_move N p u 1 (scaled_dense (re (/ s_a (make_scale lo hi))) (re (s_b (make_scale lo hi))) (coef h)) _ ltac:(ring)); [rewrite pow1; change (re 1) with (@k1 CX); ring| |exact Hj|exact Hi].
  replace (s_b (make_scale lo hi)) with (1 * s_b (make_scale lo hi)) at 2 by ring. apply carried_scaled; [ring|exact HC].
Qed.

(** ** Reversal of time *)
(** The complex conjugate of a Hamiltonian has the same local density, and the Green's function from
    [i] to [j] is the one from [j] to [i]. *)
Theorem C100_reversed : forall kn lo hi N (h h' : csr) broadening energy f al f' al' i j, offered kn ->
  (0 < N)%nat -> wf_csr N h -> wf_csr N h' -> hermitian N (coef h) -> lo < hi -> 0 < broadening ->
  can_run N h lo hi al f -> can_run N h' lo hi al' f' ->
  (forall r c, (r < N)%nat -> (c < N)%nat -> coef h' r c = kconj (coef h r c)) -> (i < N)%nat -> (j < N)%nat ->
  (exists gs, length gs = length energy /\ calc_greens f kn al lo hi h i j broadening energy = Ok gs /\ calc_greens f' kn al' lo hi h' j i broadening energy = Ok gs) /\
  exists ys, length ys = length energy /\ calc_ldos f kn al lo hi h [i] 0 broadening energy = Ok ys /\ calc_ldos f' kn al' lo hi h' [i] 0 broadening energy = Ok ys.
Proof.
  intros kn lo hi N h h' br energy f al f' al' i j Hk HN W W' Hh Hl Hb Hr Hr' HC Hi Hj.
  destruct (offered_moments kn _ Hk (broadening_pos lo hi br Hl Hb)) as (num & En & N2 & N4).
  assert (Hh' : hermitian N (coef h')) by (intros r c Hr0 Hc0; rewrite !HC, Hh by assumption; reflexivity).
  set (s := make_scale lo hi). set (X := scaled_dense (re (/ s_a s)) (re (s_b s)) (coef h)). set (Y := scaled_dense (re (/ s_a s)) (re (s_b s)) (coef h')).
  assert (HX : hermitian N X) by (apply scaled_hermitian; exact Hh).
  assert (YX : forall r c, (r < N)%nat -> (c < N)%nat -> Y r c = kconj (X r c)).
  { intros r c Hr0 Hc0. unfold X, Y, scaled_dense. rewrite HC by assumption. rewrite (kconj_mul CX), kconj_sub, (kconj_mul CX), !re_conj. unfold delta.
    destruct (r =? c)%nat; [rewrite kconj_1|rewrite kconj_0]; reflexivity. }
  assert (T : forall n r c, (r < N)%nat -> (c < N)%nat -> cheb N Y n r c = cheb N X n c r).
  { intros n r c Hr0 Hc0. rewrite (cheb_conj N X Y YX) by assumption. apply cheb_hermitian; assumption. }
  split.
  - eexists. split; [|split; [exact (greens_value f kn al lo hi N h i j br energy num HN W Hr Hh En N2 N4 Hi Hj)|]]; [apply map_length|].
    rewrite (greens_value f' kn al' lo hi N h' j i br energy num HN W' Hr' Hh' En N2 N4 Hj Hi). f_equal. apply map_ext. intros E. fold s X Y. unfold greens_of. do 2 f_equal.
    apply map_ext. intros n. rewrite T by assumption. reflexivity.
  - assert (IL : forall q, In q [i] -> (q < N)%nat) by (intros q [<-|[]]; exact Hi).
    eexists. split; [|split; [exact (ldos_value f kn al lo hi N h HN W Hr Hh [i] 0 i br energy num En N2 N4 IL eq_refl)|]]; [apply map_length|].
    rewrite (ldos_value f' kn al' lo hi N h' HN W' Hr' Hh' [i] 0 i br energy num En N2 N4 IL eq_refl). f_equal. apply map_ext. intros E. apply density_same.
    intros n. fold s X Y. unfold mu. rewrite !mu_site, T by assumption. reflexivity.
Qed.

(** ** Opposite Hamiltonians and bipartite systems *)
Lemma scale_opposite : forall lo hi, lo < hi -> s_a (make_scale (- hi) (- lo)) = s_a (make_scale lo hi) /\ s_b (make_scale (- hi) (- lo)) = - s_b (make_scale lo hi).
Proof.
  intros lo hi H. unfold make_scale. cbn [s_a s_b].
  assert (A : / 2 * (- lo - - hi) * (1 + tolerance) = / 2 * (hi - lo) * (1 + tolerance)) by ring. rewrite A. split; [reflexivity|].
  set (a := / 2 * (hi - lo) * (1 + tolerance)). replace (/ 2 * (- lo + - hi) / a) with (- (/ 2 * (hi + lo) / a)) by (unfold Rdiv; ring). rewrite Rabs_Ropp.
  destruct (Rlt_dec _ _); ring.
Qed.
(** A Hamiltonian that is the opposite of another up to numbering and phases has the mirrored density. *)
Theorem C100_opposite : forall kn lo hi N p u (h h' : csr) broadening energy f al f' al' idx k idx' k' i, offered kn ->
  (0 < N)%nat -> wf_csr N h -> wf_csr N h' -> hermitian N (coef h) -> lo < hi -> 0 < broadening ->
  can_run N h lo hi al f -> can_run N h' (- hi) (- lo) al' f' -> carried N p u (-1) (coef h) (coef h') ->
  (forall j, In j idx -> (j < N)%nat) -> (forall j, In j idx' -> (j < N)%nat) -> nth_error idx k = Some i -> nth_error idx' k' = Some (p i) ->
  (forall E, In E energy -> lo <= E <= hi) ->
  exists ys, length ys = length energy /\
    calc_ldos f kn al lo hi h idx k broadening energy = Ok ys /\ calc_ldos f' kn al' (- hi) (- lo) h' idx' k' broadening (map Ropp energy) = Ok ys.
Proof.
  intros kn lo hi N p u h h' br energy f al f' al' idx k idx' k' i Hk HN W W' Hh Hl Hb Hr Hr' HC Hi Hi' Ek Ek' HE.
  destruct (offered_moments kn _ Hk (broadening_pos lo hi br Hl Hb)) as (num & En & N2 & N4).
  pose proof (carried_hermitian N p u (-1) _ _ HC Hh) as Hh'. destruct (scale_opposite lo hi Hl) as (SA & SB).
  eexists. split; [|split; [exact (ldos_value f kn al lo hi N h HN W Hr Hh idx k i br energy num En N2 N4 Hi Ek)|]]; [apply map_length|].
  rewrite (ldos_value f' kn al' (- hi) (- lo) N h' HN W' Hr' Hh' idx' k' (p i) br (map Ropp energy) num ltac:(rewrite SA; exact En) N2 N4 Hi' Ek').
  f_equal. rewrite map_map. apply map_ext_in. intros E HEl. apply density_opposite.
  - exact SA.
  - unfold scaled. rewrite SA, SB. unfold Rdiv. ring.
  - apply scaled_range; auto.
  - intros n. apply (mu_site_move N p u (-1)); [ring| |apply Hi; eapply nth_error_In; exact Ek].
    rewrite SA, SB. replace (- s_b (make_scale lo hi)) with (-1 * s_b (make_scale lo hi)) by ring. apply carried_scaled; [ring|exact HC].
Qed.
(** If hoppings only join the sites of one class to those of the other and there are no onsite
    energies, the local density is the same at opposite energies. *)
Theorem C100_bipartite : forall kn hi N (black : nat -> bool) (h : csr) broadening energy f al idx k i, offered kn ->
  (0 < N)%nat -> wf_csr N h -> hermitian N (coef h) -> 0 < hi -> 0 < broadening -> can_run N h (- hi) hi al f ->
  (forall r c, (r < N)%nat -> (c < N)%nat -> black r = black c -> coef h r c = k0) ->
  (forall j, In j idx -> (j < N)%nat) -> nth_error idx k = Some i -> (forall E, In E energy -> - hi <= E <= hi) ->
  exists ys, length ys = length energy /\
    calc_ldos f kn al (- hi) hi h idx k broadening energy = Ok ys /\ calc_ldos f kn al (- hi) hi h idx k broadening (map Ropp energy) = Ok ys.
Proof.
  intros kn hi N black h br energy f al idx k i Hk HN W Hh Hl Hb Hr HB Hi Ek HE.
  destruct (C100_opposite kn (- hi) hi N (fun i => i) (fun i => if black i then re 1 else re (-1)) h h br energy f al f al idx k idx k i Hk HN W W Hh ltac:(lra) Hb Hr) as (ys & L & A & B); auto.
  - rewrite Ropp_involutive. exact Hr.
  - split; [split; [auto|split; [auto|]]|].
    + intros q _. destruct (black q); unfold abs2, re; cbn [fst snd]; ring.
    + intros r c Hr0 Hc0. destruct (black r) eqn:Br, (black c) eqn:Bc; rewrite ?re_conj.
      * rewrite HB by congruence. ring.
      * transitivity (kmul (re (-1)) (kmul (re (-1)) (coef h r c))); [|change (re 1) with (@k1 CX); ring].
        transitivity (kmul (kmul (re (-1)) (re (-1))) (coef h r c)); [|ring]. rewrite re_mul. replace (-1 * -1) with 1 by ring. change (re 1) with (@k1 CX). ring.
      * transitivity (kmul (re (-1)) (kmul (re (-1)) (coef h r c))); [|change (re 1) with (@k1 CX); ring].
        transitivity (kmul (kmul (re (-1)) (re (-1))) (coef h r c)); [|ring]. rewrite re_mul. replace (-1 * -1) with 1 by ring. change (re 1) with (@k1 CX). ring.
      * rewrite HB by congruence. ring.
  - rewrite Ropp_involutive in B. exists ys. auto.
Qed.

(** Two sites with one hopping: exchanging them, and opposite energies. *)
Example C100_example :
  carried 2 (fun i => 1 - i)%nat (fun i => match i with O => re 1 | _ => mk 0 1 end) 1 (coef dimer) (coef [[(1%nat, mk 0 (-1))]; [(0%nat, mk 0 1)]]) /\
  (forall r c, (r < 2)%nat -> (c < 2)%nat -> Nat.even r = Nat.even c -> coef dimer r c = k0) /\
  exists ys, length ys = 2%nat /\ calc_ldos Csr jackson plain (- (1)) 1 dimer [0%nat] 0 (/ 2) [/ 3; 1] = Ok ys /\ calc_ldos Csr jackson plain (- (1)) 1 dimer [0%nat] 0 (/ 2) [- / 3; - (1)] = Ok ys.
Proof.
  assert (Z : forall r c, (r < 2)%nat -> (c < 2)%nat -> Nat.even r = Nat.even c -> coef dimer r c = k0).
  { intros r c Hr Hc. destruct r as [|[|r]], c as [|[|c]]; try lia; intros Q; cbn in Q; try discriminate; unfold coef, entries, dimer; cbn; unfold cx_add; cbn; f_equal; ring. }
  split; [|split; [exact Z|]].
  - split; [split; [intros; lia|split; [intros; lia|]]|].
    + intros [|i] _; unfold abs2, re, mk; cbn [fst snd]; ring.
    + intros i j Hi Hj. destruct i as [|[|i]], j as [|[|j]]; try lia; unfold coef, entries, dimer; cbn; unfold cx_add, cx_mul, cx_conj, re, mk; cbn [fst snd]; f_equal; ring.
  - destruct dimer_ok as (HN & Hwf & Hh & Hl & _).
    apply (C100_bipartite jackson 1 2 Nat.even dimer (/ 2) [/ 3; 1] Csr plain [0%nat] 0 0); auto; try lra; try lia.
    + left. left. reflexivity.
    + apply plain_runs.
    + intros j [<-|[]]. lia.
    + intros E [<-|[<-|[]]]; lra.
Qed.
