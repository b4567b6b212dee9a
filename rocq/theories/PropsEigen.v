(* C53 for every Hermitian matrix: states and energies exist. *)
From Verif Require Import Base Scalar Kpm KpmSpec KpmCheb KpmGram KpmCore KpmEll KpmFinal RSum Cplx RInt Spectral SpectralProofs SpectralLine SpectralTheorem PropsSpectral.
From Coq Require Import Reals Lra.
Local Open Scope R_scope.

(** Every Hermitian matrix has a complete orthonormal set of states. *)
Theorem C53_states : forall N H, hermitian N H -> exists psi en, eigenbasis N H psi en.
Proof. exact spectral_theorem. Qed.
Print Assumptions C53_states.

(** Energies lie between the bounds of the energy. *)
Lemma eigen_within : forall N H psi en lo hi, eigenbasis N H psi en -> hermitian N H ->
  (forall v : nat -> CX, lo * rsum (fun i => abs2 (v i)) N <= fst (braket N v H v) <= hi * rsum (fun i => abs2 (v i)) N) ->
  forall k, (k < N)%nat -> (exists i, (i < N)%nat /\ psi k i <> k0) -> lo <= en k <= hi.
Proof.
  intros N H psi en lo hi (E & _) HH W k Hk (i & Hi & Nz). specialize (W (psi k)).
  assert (Q : fst (braket N (psi k) H (psi k)) = en k * rsum (fun i => abs2 (psi k i)) N).
  { rewrite <- inner_braket. rewrite (inner_ext CX N (psi k) (ap CX N H (psi k)) (psi k) (fun i => kmul (re (en k)) (psi k i))) by (auto; intros; apply E; assumption).
    rewrite ip_scal_r, fst_re_mul, inner_norm. reflexivity. }
  rewrite Q in W. pose proof (norm2_some N (psi k) i Hi Nz) as P. unfold norm2 in P. nra.
Qed.

(** Both densities for every Hamiltonian whose energies lie between the bounds. *)
Theorem C53_all : forall f al lo hi N h broadening,
  bounded_hamiltonian N h lo hi -> can_run N h lo hi al f -> 0 < broadening ->
  let s := make_scale lo hi in
  exists psi en (peak peak' : R -> R -> R),
    eigenbasis N (coef h) psi en /\ (forall k, (k < N)%nat -> lo <= en k <= hi) /\
    (forall m, (m < N)%nat -> sharp_peak (peak (en m)) (s_b s - s_a s) (s_b s + s_a s) (en m) broadening /\
                              sharp_peak (peak' (en m)) (s_b s - s_a s) (s_b s + s_a s) (en m) broadening) /\
    (forall idx k i energy, (forall j, In j idx -> (j < N)%nat) -> nth_error idx k = Some i -> (forall E, In E energy -> lo <= E <= hi) ->
       calc_ldos f jackson al lo hi h idx k broadening energy = Ok (map (fun E => Some (rsum (fun m => abs2 (psi m i) * peak (en m) E) N)) energy)) /\
    (forall r energy, length r = N -> (forall E, In E energy -> lo <= E <= hi) ->
       calc_dos f jackson al lo hi h r broadening energy
       = Ok (map (fun E => Some (rsum (fun m => abs2 (ksum (fun i => kmul (kconj (psi m i)) (nth i r k0)) (seq 0 N)) * peak' (en m) E) N)) energy)).
Proof.
  intros f al lo hi N h br (HN & Hwf & Hh & Hl & Hw) Hr Hb s.
  destruct (states N (coef h) Hh N (le_n N)) as (psi & en & O & Eg).
  assert (EB : eigenbasis N (coef h) psi en) by (split; [exact Eg|apply complete; exact O]).
  assert (En : forall k, (k < N)%nat -> lo <= en k <= hi).
  { intros k Hk. eapply eigen_within; eauto.
    destruct (all_dec (psi k) N) as [Z|Z]; [|exact Z]. exfalso. pose proof (norm_psi N N psi O k Hk) as P.
    unfold norm2 in P. rewrite (rsum_0 _ N) in P; [lra|]. intros i Hi. rewrite Z by exact Hi. unfold abs2. cbn. ring. }
  destruct (C53_ldos f al lo hi N h psi en br HN Hwf Hh Hl Hr Hb EB En) as (peak & A & B).
  destruct (C53_dos f al lo hi N h psi en br HN Hwf Hh Hl Hr Hb EB En) as (peak' & A' & B').
  exists psi, en, peak, peak'. auto 10.
Qed.
Print Assumptions C53_all.
(** The dimer. *)
Example C53_all_example : exists psi en (peak : R -> R -> R), eigenbasis 2 (coef dimer) psi en /\
  calc_ldos Csr jackson plain (-1) 1 dimer [0%nat; 1%nat] 1 (/ 10) [0; / 2; 1] =
    Ok (map (fun E => Some (rsum (fun m => abs2 (psi m 1%nat) * peak (en m) E) 2)) [0; / 2; 1]).
Proof.
  destruct (C53_all Csr plain (-1) 1 2 dimer (/ 10) dimer_ok (plain_runs _ _ _ _) ltac:(lra)) as (psi & en & peak & _ & E & _ & _ & D & _).
  exists psi, en, peak. split; [exact E|]. apply D; [intros j [<-|[<-|[]]]; lia|reflexivity|intros x [<-|[<-|[<-|[]]]]; lra].
Qed.
