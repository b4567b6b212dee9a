(* Property theorems C50, C51: solver and KPM objects that are used for a long time.
   Models: Solver.v, KpmState.v, ModelState.v; proofs: SolverProofs.v, KpmStateProofs.v. *)
From Verif Require Import Base Scalar Foundation Lattice SystemBuild ModelState Kpm KpmCore Solver SolverProofs KpmState KpmStateProofs
  KpmFinal KpmEll GaussQ PropsHamiltonian PropsModel PropsKpm.

(* ------------------------------------------------------------------------------------------ *)
(* C50  What a solver object returns belongs to the model the object shows. *)

(** The solver objects on top of the class Model (C20), for any way of making systems and matrices. *)
Section Attached.
  Context {R : scalar} {P Shp Sy Fn : Type}.
  Variable B : builders R P Shp Sy Fn.
  Definition model_of : Type := state R P Shp Sy Fn (b_LS B) (b_Sys B) (b_H B) (b_LH B).
  Definition ham_of : model_of -> model_of * res (b_H B) :=
    q_ham R P Shp Sy Fn _ _ _ _ _ (b_found B) (b_lead B) (b_finish B) (b_real B) (b_complex B) (b_im B).
  Variable V : Type.
  Variable same_type : b_H B -> b_H B -> bool.
  Variable solve_for : b_H B -> res V.
  Variable nonempty : V -> bool.

  (** The answer a new model with this configuration, or this very model, would give. *)
  Definition right_answer (m : model_of) : outcome V := expected model_of (b_H B) V ham_of solve_for m.

  Definition cpp_solver (m : model_of) (ops : list (sop model_of)) : res (bsolver model_of (b_H B) V) :=
    match make_solver _ _ _ ham_of m with
    | Ret st => Ret (fold_left (bstep _ _ _ ham_of same_type solve_for) ops st)
    | Raise => Raise
    end.
  Definition cpp_answer (st : bsolver model_of (b_H B) V) : outcome V := snd (values _ _ _ solve_for st).
  Definition py_solver (m : model_of) (ops : list (sop model_of)) : psolver model_of V :=
    fold_left (pstep _ _ _ ham_of solve_for nonempty) ops (PSolver m None).
  Definition py_answer (st : psolver model_of V) : outcome V := snd (psolve _ _ _ ham_of solve_for nonempty st).
  Definition kpm_object (m : model_of) (ops : list (sop model_of)) : res (ksolver model_of (b_H B)) :=
    match make_kpm _ _ ham_of m with
    | Ret st => Ret (fold_left (kstep _ _ ham_of) ops st)
    | Raise => Raise
    end.
  Definition kpm_answer (st : ksolver model_of (b_H B)) : outcome V := kvalues _ _ _ solve_for st.

  Definition cpp_right : Prop := forall m ops st, cpp_solver m ops = Ret st -> cpp_answer st = right_answer (b_model st).
  Definition py_right : Prop := forall m ops, let st := py_solver m ops in py_answer st = right_answer (p_model st).
  Definition kpm_right : Prop := forall m ops st, kpm_object m ops = Ret st -> kpm_answer st = right_answer (k_model st).

  Lemma ham_of_stable : forall m m' h, ham_of m = (m', Ret h) -> ham_of m' = (m', Ret h).
  Proof. intros m m' h E. exact (q_ham_stable _ _ _ _ _ _ _ _ _ _ _ _ _ _ _ _ _ _ _ E). Qed.

  (** No change in place since a model that could be built was handed over. *)
  Definition only_whole (ops : list (sop model_of)) : bool := fold_left (kept model_of (b_H B) ham_of) ops true.
  (** No change in place since the results were dropped. *)
  Definition results_dropped (ops : list (sop model_of)) : bool := fold_left (dropped model_of) ops true.
End Attached.

Definition C50_claim : Prop := forall R P Shp Sy Fn (B : builders R P Shp Sy Fn) V same_type solve_for nonempty,
  cpp_right B V same_type solve_for /\ py_right B V solve_for nonempty /\ kpm_right B V solve_for.

(** The eigensolvers and KPM on top of Model return the results of the current Hamiltonian of the
    model they show, whatever was asked before and however often the model was exchanged, as long
    as the model was not changed behind the object. *)
Theorem C50_cpp_partial : forall R P Shp Sy Fn (B : builders R P Shp Sy Fn) V same_type solve_for m ops st,
  cpp_solver B V same_type solve_for m ops = Ret st -> only_whole B ops = true ->
  cpp_answer B V solve_for st = right_answer B V solve_for (b_model st).
Proof.
  intros R P Shp Sy Fn B V same_type solve_for m ops st E W. unfold cpp_solver in E.
  destruct (make_solver _ _ _ (ham_of B) m) as [s0|] eqn:E0; [|discriminate]. injection E as <-.
  apply (binv_values _ _ _ (ham_of B)). eapply binv_run; [apply ham_of_stable| |intros _; eapply binv_make; [apply ham_of_stable|exact E0]|exact W].
  destruct (binv_make _ _ _ (ham_of B) solve_for (ham_of_stable B) m s0 E0) as [(t & Et & _)]. congruence.
Qed.
Print Assumptions C50_cpp_partial.
(** LAPACK and ARPACK also follow [Solver.set_wave_vector], so [calc_bands] is right. *)
Theorem C50_python_partial : forall R P Shp Sy Fn (B : builders R P Shp Sy Fn) V solve_for nonempty m ops,
  results_dropped B ops = true -> let st := py_solver B V solve_for nonempty m ops in
  py_answer B V solve_for nonempty st = right_answer B V solve_for (p_model st).
Proof.
  intros R P Shp Sy Fn B V solve_for nonempty m ops W st. apply (psolve_ok _ _ _ (ham_of B) solve_for nonempty (ham_of_stable B)).
  eapply pinv_run; [apply ham_of_stable| |exact W]. intros _ v X. discriminate X.
Qed.
Print Assumptions C50_python_partial.
Theorem C50_kpm_partial : forall R P Shp Sy Fn (B : builders R P Shp Sy Fn) V solve_for m ops st,
  kpm_object B m ops = Ret st -> only_whole B ops = true ->
  kpm_answer B V solve_for st = right_answer B V solve_for (k_model st).
Proof.
  intros R P Shp Sy Fn B V solve_for m ops st E W. unfold kpm_object in E.
  destruct (make_kpm _ _ (ham_of B) m) as [s0|] eqn:E0; [|discriminate]. injection E as <-.
  assert (K : kinv _ _ (ham_of B) (fold_left (kstep _ _ (ham_of B)) ops s0)).
  { eapply kinv_run; [apply ham_of_stable|intros _; eapply kinv_make; [apply ham_of_stable|exact E0]|exact W]. }
  unfold kpm_answer, right_answer, kvalues, expected. rewrite K. reflexivity.
Qed.
Print Assumptions C50_kpm_partial.

(** *** Where it fails.  The result of the toy solver is the matrix itself. *)
Definition at_k (k : Z) : model_of plain -> model_of plain := fun m => fst (call plain Z.add Z.eqb (fun _ => true) (ModelState.SetWave k) m).
Definition widen : model_of plain -> model_of plain := fun m => fst (call plain Z.add Z.eqb (fun _ => true) (AddPrimitive (I3 3 1 1)) m).
Definition same_scalar (a b : toy_ham) : bool := Bool.eqb (t_complex a) (t_complex b).
Definition itself (h : toy_ham) : res toy_ham := Ret h.
Definition small : model_of plain := fresh start.

(** The bands of a periodic model: one result per wave vector (pybinding/solver.py:296-304). *)
Definition bands (answer : list (sop (model_of plain)) -> outcome toy_ham) (ks : list Z) : list (outcome Z) :=
  map (fun n => omap (fun h => t_wave h) (answer (flat_map (fun k => [Solver.SetWave (at_k k); Solve]) (firstn n ks)))) (seq 1 (length ks)).
Definition cpp_bands (ops : list (sop (model_of plain))) : outcome toy_ham :=
  match cpp_solver plain toy_ham same_scalar itself small ops with Ret st => cpp_answer plain toy_ham itself st | Raise => Throw end.
Definition py_bands (ops : list (sop (model_of plain))) : outcome toy_ham :=
  py_answer plain toy_ham itself (fun _ => true) (py_solver plain toy_ham itself (fun _ => true) small ops).
Example C50_example_bands : bands py_bands [5; -2; 3]%Z = [Ok 5; Ok (-2); Ok 3]%Z /\
  bands cpp_bands [5; -2; 3]%Z = [Ok 0; Ok 0; Ok 0]%Z.
Proof. split; vm_compute; reflexivity. Qed.

(** [set_wave_vector] of a FEAST solver changes the model but not the matrix of the strategy: all
    bands are those of the first wave vector. *)
Theorem C50_refuted_wave_vector : ~ cpp_right plain toy_ham same_scalar itself.
Proof.
  intros C. pose proof (f_equal (omap (fun h => t_wave h)) (C small [Solver.SetWave (at_k 5); Solve]%Z _ eq_refl)) as X.
  assert (Y : (Ok 0 = Ok 5)%Z) by (vm_compute in X |- *; exact X). discriminate Y.
Qed.
(** A change of the model in place is not seen by LAPACK and ARPACK either once results exist. *)
Theorem C50_refuted_edit : ~ py_right plain toy_ham itself (fun _ => true).
Proof.
  intros C. pose proof (f_equal (omap (fun h => t_prim (t_sys h))) (C small [Solve; Edit widen])) as X.
  assert (Y : Ok (I3 1 1 1) = Ok (I3 3 1 1)) by (vm_compute in X |- *; exact X). discriminate Y.
Qed.
(** KPM keeps the matrix it was made with. *)
Theorem C50_refuted_kpm : ~ kpm_right plain toy_ham itself.
Proof.
  intros C. pose proof (f_equal (omap (fun h => t_prim (t_sys h))) (C small [Edit widen] _ eq_refl)) as X.
  assert (Y : Ok (I3 1 1 1) = Ok (I3 3 1 1)) by (vm_compute in X |- *; exact X). discriminate Y.
Qed.
(** A model that cannot be built is stored although [set_model] raised; the object then shows the
    new model and returns the results of the old one. *)
Definition fails_on (x : Z) : builders GI Z nat unit nat :=
  @Builders GI Z nat unit nat toy_sys nat toy_sys toy_ham (nat * bool)
    (fun c => if (ix (s_prim c) =? x)%Z then Raise else Ret (summary c)) (fun _ _ sp => Ret (sh_body (snd sp))) (fun c _ => Ret (summary c))
    (fun c s => HRet (toy_make c s false)) (fun c s => Ret (toy_make c s true)) (fun _ b l => Ret (l, b)) (fun _ => false).
Definition wide_start : toy_config := Cfg 2 0%Z [] [] (I3 3 1 1) None None 0%Z [] [] [] [].
Theorem C50_refuted_failed_model : exists st,
  cpp_solver (fails_on 3) toy_ham same_scalar itself (fresh start) [SetModel (fresh wide_start)] = Ret st /\
  c_prim (st_cfg (b_model st)) = I3 3 1 1 /\ right_answer (fails_on 3) toy_ham itself (b_model st) = Throw /\
  omap (fun h => t_prim (t_sys h)) (cpp_answer (fails_on 3) toy_ham itself st) = Ok (I3 1 1 1).
Proof. eexists. split; [reflexivity|]. repeat split; vm_compute; reflexivity. Qed.
Print Assumptions C50_refuted_failed_model.
Theorem C50_refuted : ~ C50_claim.
Proof.
  intros C. destruct (C GI Z nat unit nat plain toy_ham same_scalar itself (fun _ => true)) as (X & _). exact (C50_refuted_wave_vector X).
Qed.
Print Assumptions C50_refuted.

(** Exchanging models, with queries in between, real and complex matrices. *)
Example C50_example_exchange :
  let show := omap (fun h => (t_prim (t_sys h), t_wave h)) in
  let ops := [Solve; SetModel (at_k 4%Z small); Solve; SetModel (widen small); Clear; Solve] in
  only_whole plain ops = true /\ results_dropped plain ops = true /\
  show (cpp_bands ops) = Ok (I3 3 1 1, 0%Z) /\ show (py_bands ops) = Ok (I3 3 1 1, 0%Z) /\
  show (cpp_bands (firstn 3 ops)) = Ok (I3 1 1 1, 4%Z).
Proof. repeat split; vm_compute; reflexivity. Qed.

(* ------------------------------------------------------------------------------------------ *)
(* C51  Kernel polynomial results do not depend on what the object computed before. *)

Section Kept.
  Context {R : scalar} {E : Type}.
  Local Notation csr := (list (list (nat * R))).
  Variable eqb : E -> E -> bool.
  Variable lanczos : csr -> outcome (E * E).
  Variable scale : E -> E -> R * R.
  Variable reorder : bool.
  Variable range : E * E.
  Variable zero : E.
  (** An answer after a history of queries and new Hamiltonians. *)
  Definition kpm_after {A} (h0 : csr) (hist : list (kop R)) (idx : indices) (f : optimized R -> R * R -> outcome A) : outcome A :=
    snd (query R E eqb lanczos scale reorder idx f
      (fold_left (kdo R E eqb lanczos scale reorder range zero) hist (new_core R E eqb range zero h0))).
  (** The answer computed once, from the matrix, with nothing kept. *)
  Definition kpm_once {A} (h : csr) (idx : indices) (f : optimized R -> R * R -> outcome A) : outcome A :=
    obind (if eqb (fst range) (snd range) then lanczos h else Ok range) (fun r =>
    obind (optimize R (fst (scale (fst r) (snd r))) (snd (scale (fst r) (snd r))) h reorder idx) (fun oh => f oh (scale (fst r) (snd r)))).
  (** The Hamiltonian set last. *)
  Fixpoint last_ham (h : csr) (hist : list (kop R)) : csr :=
    match hist with [] => h | KHam h' :: t => last_ham h' t | KQuery _ :: t => last_ham h t end.
End Kept.

Lemma last_ham_current : forall R (hist : list (kop R)) h, current R h hist = last_ham h hist.
Proof. intros R. unfold current. induction hist as [|[i|h1] t IH]; intros h; cbn; auto. Qed.

Definition C51_claim : Prop := forall (R : scalar) E (eqb : E -> E -> bool) lanczos (scale : E -> E -> R * R) reorder range zero A h0 hist idx
  (f : optimized R -> R * R -> outcome A), eqb zero zero = true ->
  kpm_after eqb lanczos scale reorder range zero h0 hist idx f = kpm_once eqb lanczos scale reorder range (last_ham h0 hist) idx f.

Theorem C51_history_partial : forall (R : scalar) E (eqb : E -> E -> bool) lanczos (scale : E -> E -> R * R) reorder range zero A h0 hist idx
  (f : optimized R -> R * R -> outcome A), eqb zero zero = true -> idx <> Indices [] [] ->
  kpm_after eqb lanczos scale reorder range zero h0 hist idx f = kpm_once eqb lanczos scale reorder range (last_ham h0 hist) idx f.
Proof.
  intros R E eqb lanczos scale reorder range zero A h0 hist idx f Hz Hi. unfold kpm_after, kpm_once. rewrite <- last_ham_current.
  assert (I : cinv R E eqb lanczos scale reorder range zero (current R h0 hist)
               (fold_left (kdo R E eqb lanczos scale reorder range zero) hist (new_core R E eqb range zero h0))).
  { apply history_ok; [exact Hz|]. apply cinv_new. }
  destruct (query_ok R E eqb lanczos scale reorder range zero Hz A idx f _ _ I) as (_ & X). rewrite (X Hi). reflexivity.
Qed.
Print Assumptions C51_history_partial.

(** In terms of the calculations of C26-C31: scaling factors of the range, and the function of
    the matrix they are about. *)
Definition scaled_range {R : scalar} {E} (eqb : E -> E -> bool) (lanczos : list (list (nat * R)) -> outcome (E * E)) (scale : E -> E -> R * R)
  (range : E * E) (h : list (list (nat * R))) : outcome (R * R) :=
  omap (fun r => scale (fst r) (snd r)) (if eqb (fst range) (snd range) then lanczos h else Ok range).

Section Calculations.
  Context {R : scalar} {E : Type}.
  Local Notation csr := (list (list (nat * R))).
  Variables (half : R) (kr_of : csr -> kernel R).
  Variable eqb : E -> E -> bool.
  Variable lanczos : csr -> outcome (E * E).
  Variable scale : E -> E -> R * R.
  Variable range : E * E.
  Variable zero : E.
  Hypothesis eqb_zero : eqb zero zero = true.
  Variable al : algorithm.
  Notation now := (kpm_after eqb lanczos scale (al_reorder al) range zero).
  Notation sc h := (scaled_range eqb lanczos scale range h).

  Lemma once_scaled : forall A h idx (f : optimized R -> R * R -> outcome A),
    kpm_once eqb lanczos scale (al_reorder al) range h idx f =
    obind (sc h) (fun s => obind (optimize R (fst s) (snd s) h (al_reorder al) idx) (fun oh => f oh s)).
  Proof. intros A h idx f. unfold kpm_once, scaled_range. destruct (if eqb (fst range) (snd range) then lanczos h else Ok range); reflexivity. Qed.

  Theorem C51_moments_partial : forall h0 hist g num alpha beta op,
    now h0 hist (Indices [0] [0]) (ask_moments R half kr_of g al num alpha beta op) =
    obind (sc (last_ham h0 hist)) (fun s => core_moments R half (fst s) (snd s) kr_of g (last_ham h0 hist) al num alpha beta op).
  Proof. intros. rewrite C51_history_partial, once_scaled by (auto; discriminate). reflexivity. Qed.
  Theorem C51_greens_partial : forall h0 hist num row cols,
    now h0 hist (Indices [row] cols) (ask_greens R half kr_of (length (last_ham h0 hist)) al num) =
    obind (sc (last_ham h0 hist)) (fun s => core_greens R half (fst s) (snd s) kr_of (last_ham h0 hist) al num row cols).
  Proof. intros. rewrite C51_history_partial, once_scaled by (auto; discriminate). reflexivity. Qed.
  Theorem C51_ldos_partial : forall h0 hist num k idx, idx <> [] ->
    now h0 hist (Indices idx idx) (ask_ldos R half kr_of (length (last_ham h0 hist)) al num k) =
    obind (sc (last_ham h0 hist)) (fun s => obind (ldos_start R (fst s) (snd s) (last_ham h0 hist) al idx) (fun oh =>
      ldos_column R half kr_of (last_ham h0 hist) al num oh k)).
  Proof. intros. rewrite C51_history_partial, once_scaled by (auto; congruence). reflexivity. Qed.
End Calculations.
Print Assumptions C51_moments_partial.
Print Assumptions C51_greens_partial.
Print Assumptions C51_ldos_partial.

(** A spatial LDOS of no site at all: on a new object the matrix was never filled, after another
    query there is one. *)
Definition ask_first (hist : list (kop GQ)) (idx : indices) : outcome nat :=
  kpm_after Z.eqb (fun _ => Ok (-2, 2)%Z) (fun _ _ => (@k1 GQ, @k0 GQ)) false (0, 0)%Z 0%Z chain hist idx (fun oh _ => Ok (length (oh_matrix oh))).
Example C51_example_empty : ask_first [] (Indices [] []) = UB /\ ask_first [KQuery (Indices [0] [0])] (Indices [] []) = Ok 3.
Proof. split; vm_compute; reflexivity. Qed.
Theorem C51_refuted : ~ C51_claim.
Proof.
  intros C. pose proof (C GQ Z Z.eqb (fun _ => Ok (-2, 2)%Z) (fun _ _ => (@k1 GQ, @k0 GQ)) false (0, 0)%Z 0%Z nat chain [] (Indices [] [])
    (fun oh _ => Ok (length (oh_matrix oh))) eq_refl) as X. vm_compute in X. discriminate X.
Qed.
Print Assumptions C51_refuted.

From Coq Require Import QArith.
Local Open Scope nat_scope.
(** Green's functions asked twice, with other queries and matrices in between; the range is the
    user's in one case and estimated in the other. *)
Definition greens_now (range : Z * Z) (hist : list (kop GQ)) : outcome (list (list (Q * Q))) :=
  omap (map (map see)) (kpm_after Z.eqb (fun h => Ok (- Z.of_nat (length h), Z.of_nat (length h))%Z)
    (fun lo hi => ((if (hi =? 3)%Z then gq_half else @k1 GQ, @k0 GQ) : GQ * GQ)) true range 0%Z apart hist
    (Indices [0] [1]) (ask_greens GQ gq_half (format_kernel GQ gq_half Csr) 3 (Algorithm true true) 2)).
Example C51_example :
  let hist := [KHam chain; KQuery (Indices [0] [1]); KQuery (Indices [2] [2]); KQuery (Indices [1; 2] [1; 2])] in
  greens_now (0, 0)%Z hist = greens_now (0, 0)%Z [KHam chain] /\ greens_now (0, 0)%Z hist = Ok [[(0, 0); (1 # 2, - (1 # 2))]]%Q /\
  greens_now (-5, 5)%Z hist = Ok [[(0, 0); (1, -1)]]%Q.
Proof. repeat split; vm_compute; reflexivity. Qed.
