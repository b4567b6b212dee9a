(* Properties of the eigensolvers (C49). *)
From Verif Require Import Base Feast FeastProofs.
Local Open Scope Z_scope.

(* ------------------------------------------------------------------------------------------ *)
(* C49  The FEAST strategy hands MKL buffers that are large enough, for any sequence of Hamiltonians,
        and always comes back. *)

(** MKL's documented behaviour for a matrix of size [n] with [need] eigenvalues in the interval
    (the smallest subspace that is accepted). *)
Definition mkl_contract (mkl : nat -> Z -> Z -> bool -> report) (n need : Z) : Prop :=
  need <= n /\ forall k m0 b, 0 <= m0 -> let r := mkl k n m0 b in
    0 <= r_loops r /\ 0 <= r_suggested r <= m0 /\ 0 <= r_final r <= m0 /\
    (r_code r = 3 -> m0 < need /\ r_suggested r = m0) /\ (r_code r = 0 -> 1 <= r_final r).

(** The result of a session: an exception, or results whose arrays have the right extents. *)
Definition session_ok (res : fres) (last : option Z) : Prop :=
  match res with
  | FThrow => True
  | FDone st => match last with
                | None => True
                | Some n => f_rows st = n /\ r_final (f_info st) <= f_values st /\ r_final (f_info st) <= f_cols st
                end
  | _ => False
  end.
Definition last_size (sizes : list Z) : option Z := last (map Some sizes) None.

Definition C49_claim : Prop := forall mkl need c sizes,
  (forall n, In n sizes -> 1 <= n /\ mkl_contract mkl n (need n)) -> 1 <= f_max_loops c ->
  exists fuel0, forall fuel, (fuel0 <= fuel)%nat -> session_ok (session mkl fuel (new_feast c) sizes) (last_size sizes).

(** Code 3 until the subspace has two columns. *)
Definition mkl_two (k : nat) (n m0 : Z) (b : bool) : report := if m0 <? 2 then Report 1 m0 0 3 else Report 1 2 2 0.
Lemma mkl_two_ok : forall n, 2 <= n -> mkl_contract mkl_two n 2.
Proof.
  intros n Hn. split; [lia|]. intros k m0 b Hm. unfold mkl_two. destruct (Z.ltb_spec m0 2); cbn; repeat split; try lia; try discriminate.
Qed.

Lemma stuck_loop : forall fuel st, r_code (f_info st) = 3 -> f_guess (f_cfg st) = 1 -> resize_loop mkl_two fuel 5 st = FFuel.
Proof.
  induction fuel as [|fuel IH]; intros st Hc Hg; cbn [resize_loop]; rewrite Hc; [reflexivity|]. cbn [Z.eqb Pos.eqb].
  assert (E : exists st', call_feast mkl_two 5 (force_clear (with_guess st (enlarge (f_guess (f_cfg st))))) = FDone st' /\
    f_info st' = Report 1 1 0 3 /\ f_guess (f_cfg st') = 1).
  { rewrite Hg. change (enlarge 1) with 1. eexists. split; [unfold call_feast; lazy beta delta iota zeta; reflexivity|]. split; reflexivity. }
  destruct E as (st' & -> & Ei & Eg). rewrite Ei. cbn [r_code Z.eqb Pos.eqb negb andb]. apply IH; [now rewrite Ei|exact Eg].
Qed.
(** Starting with a subspace of one vector, the solver never comes back when the interval holds
    two eigenvalues: 1 * 1.7 truncates to 1. *)
Theorem C49_refuted_guess_one : forall fuel r max, session mkl_two fuel (new_feast (FConfig 1 r max)) [5] = FFuel \/ r = true.
Proof.
  intros fuel [|] max; [now right|]. left. cbn [session]. unfold solve, change_hamiltonian, new_feast.
  assert (E : exists st', call_feast mkl_two 5 (with_flags (force_clear (FState (FConfig 1 false max) (Report 0 0 0 0) 0 0 0 0 false 0 false 0)) false 0 false) = FDone st' /\
    f_info st' = Report 1 1 0 3 /\ f_cfg st' = FConfig 1 false max).
  { eexists. split; [lazy; reflexivity|]. split; reflexivity. }
  cbn [f_recycle f_cfg]. destruct E as (st' & -> & Ei & Eg). cbn [fbind]. rewrite Eg. cbn [f_recycle fbind]. rewrite Ei. cbn [r_code Z.eqb Pos.eqb].
  rewrite stuck_loop; [reflexivity|cbn; now rewrite Ei|cbn; now rewrite Eg].
Qed.
Print Assumptions C49_refuted_guess_one.

(** Finds one eigenvalue in any subspace that is not empty and keeps the subspace size. *)
Definition mkl_keep (k : nat) (n m0 : Z) (b : bool) : report := Report 1 m0 (Z.min 1 m0) (if m0 =? 0 then 2 else 0).
Lemma mkl_keep_ok : forall n, 1 <= n -> mkl_contract mkl_keep n 1.
Proof.
  intros n Hn. split; [lia|]. intros k m0 b Hm. unfold mkl_keep. destruct (Z.eqb_spec m0 0); cbn; repeat split; try lia; try discriminate.
Qed.
(** With [recycle_subspace] the buffers keep the size of the first Hamiltonian: a larger second one
    makes MKL write past the end of the eigenvectors, a smaller one leaves the eigenvectors with
    the wrong number of rows. *)
Theorem C49_refuted_recycle : forall fuel,
  session mkl_keep (S fuel) (new_feast (FConfig 5 true 5)) [5; 9] = FOverflow /\
  exists st, session mkl_keep (S fuel) (new_feast (FConfig 5 true 5)) [5; 3] = FDone st /\ f_rows st = 5.
Proof. intros fuel. split; [vm_compute; reflexivity|]. eexists. split; [vm_compute; reflexivity|reflexivity]. Qed.
Print Assumptions C49_refuted_recycle.

(** No eigenvalue in the interval, which [solve] takes for "not really an error" (FEAST.cpp:58-59). *)
Definition mkl_none (k : nat) (n m0 : Z) (b : bool) : report := Report 1 m0 0 1.
Theorem C49_refuted_none : (forall n, 1 <= n -> mkl_contract mkl_none n 0) /\
  forall fuel, session mkl_none fuel (new_feast (FConfig 5 false 5)) [5] = FEmptyMax.
Proof.
  split; [|intros fuel; vm_compute; reflexivity]. intros n Hn. split; [lia|]. intros k m0 b Hm. cbn. repeat split; try lia; discriminate.
Qed.
Print Assumptions C49_refuted_none.

Theorem C49_refuted : ~ C49_claim.
Proof.
  intros H. destruct (H mkl_two (fun _ => 2) (FConfig 1 false 5) [5]) as (fuel0 & X).
  - intros n [<-|[]]. split; [lia|apply mkl_two_ok; lia].
  - cbn. lia.
  - specialize (X fuel0 (le_n _)). destruct (C49_refuted_guess_one fuel0 false 5) as [E|E]; [rewrite E in X; exact X|discriminate].
Qed.
Print Assumptions C49_refuted.

(** What holds: with at least one eigenvalue in the interval (no code 1), Hamiltonians of size two
    or more, a first guess other than 0 and 1, and, when the subspace is recycled, Hamiltonians of
    one size, every session ends with an exception or with arrays of the right extents. *)
Lemma session_steps : forall mkl need c fuel sizes st,
  (forall n, In n sizes -> 2 <= n /\ mkl_contract mkl n (need n) /\ (forall k m0 b, r_code (mkl k n m0 b) <> 1)) ->
  (forall n, In n sizes -> solve_fuel n (f_max_loops c) <= Z.of_nat fuel) ->
  1 <= f_max_loops c -> f_max_loops (f_cfg st) = f_max_loops c -> f_recycle (f_cfg st) = f_recycle c ->
  (2 <= f_guess (f_cfg st) \/ (f_guess (f_cfg st) < 0 /\ f_values st = 0)) ->
  (f_recycle c = true -> forall n, In n sizes -> fits n st) ->
  (f_recycle c = true -> forall n m, In n sizes -> In m sizes -> n = m) ->
  forall last, session_ok (FDone st) last ->
  session_ok (session mkl fuel st sizes) (List.last (map Some sizes) last).
Proof.
  intros mkl need c fuel sizes. induction sizes as [|n t IH]; intros st Hall Hfuel Hmax Em Er Hg Hrec Hsame lst Hl; [exact Hl|].
  cbn [session]. destruct (Hall n (or_introl eq_refl)) as (Hn & (Hneed & Hmkl) & Hone).
  set (st0 := change_hamiltonian st).
  assert (F0 : fits n st0 /\ f_cfg st0 = f_cfg st /\ (f_values st = 0 -> f_values st0 = 0)).
  { subst st0. unfold change_hamiltonian. rewrite Er. destruct (f_recycle c) eqn:E.
    - split; [apply Hrec; auto; now left|auto].
    - split; [apply clear_fits; lia|auto]. }
  destruct F0 as (F0 & Ec & Ev).
  destruct (solve_ok mkl n (need n) ltac:(lia) Hneed Hmkl st0 F0) with (fuel := fuel) as [E|[(E & k & m0 & b & X)|(st' & E & F' & G' & (K1 & K2) & (V1 & V2) & Hcode & Hfin)]].
  - unfold gg. rewrite Ec. destruct Hg as [Hg|(Hg & Hv)]; [left; lia|right; split; auto].
  - rewrite Ec, Em. exact Hmax.
  - rewrite Ec, Em. apply Hfuel. now left.
  - rewrite E. cbn [fbind]. exact I.
  - exfalso. exact (Hone k m0 b X).
  - rewrite E. cbn [fbind]. rewrite Ec in *.
    assert (Hl' : session_ok (FDone st') (Some n)) by (cbn; repeat split; auto; lia).
    specialize (IH st'). unfold gg in G'.
    assert (List.last (map Some (n :: t)) lst = List.last (map Some t) (Some n)) as ->.
    { clear. cbn [map]. destruct t as [|m t]; [reflexivity|]. cbn [map]. generalize (Some m), (map Some t). intros o l. revert o. induction l as [|o' l IHl]; intros o; [reflexivity|].
      change (last (Some n :: o :: o' :: l) lst) with (last (o :: o' :: l) lst). change (last (o :: o' :: l) (Some n)) with (last (o' :: l) (Some n)).
      change (last (o :: o' :: l) lst) with (last (o' :: l) lst). change (last (o' :: l) lst) with (last (Some n :: o' :: l) lst). apply IHl. }
    apply IH; auto.
    + intros m Hm. apply Hall. now right.
    + intros m Hm. apply Hfuel. now right.
    + congruence.
    + congruence.
    + left. lia.
    + intros Hr m Hm. assert (m = n) as -> by (apply Hsame; auto; [now right|now left]). exact F'.
    + intros Hr a b Ha Hb. apply Hsame; auto; now right.
Qed.

Theorem C49_solve_partial : forall mkl need c sizes,
  (forall n, In n sizes -> 2 <= n /\ mkl_contract mkl n (need n) /\ (forall k m0 b, r_code (mkl k n m0 b) <> 1)) ->
  1 <= f_max_loops c -> f_guess c <> 0 -> f_guess c <> 1 ->
  (f_recycle c = true -> forall n m, In n sizes -> In m sizes -> n = m) ->
  exists fuel0, forall fuel, (fuel0 <= fuel)%nat -> session_ok (session mkl fuel (new_feast c) sizes) (last_size sizes).
Proof.
  intros mkl need c sizes Hall Hmax H0 H1 Hsame.
  exists (Z.to_nat (fold_right Z.max 0 (map (fun n => solve_fuel n (f_max_loops c)) sizes))). intros fuel Hf.
  apply (session_steps mkl need c fuel sizes (new_feast c)); auto.
  - intros n Hn. assert (solve_fuel n (f_max_loops c) <= fold_right Z.max 0 (map (fun n => solve_fuel n (f_max_loops c)) sizes)); [|lia].
    clear - Hn. induction sizes as [|m t IH]; [destruct Hn|]. cbn [map fold_right]. destruct Hn as [->|Hn]; [lia|]. specialize (IH Hn). lia.
  - cbn. lia.
  - intros _ n Hn. destruct (Hall n Hn) as (Hn2 & _). constructor; cbn; auto; lia.
  - exact I.
Qed.
Print Assumptions C49_solve_partial.

(** Guess 3 grows to 5, 8 and 13 until all 12 eigenvalues fit, capped at the size of the matrix;
    the second Hamiltonian starts from there. *)
Definition mkl_all (k : nat) (n m0 : Z) (b : bool) : report := if m0 <? n then Report 1 m0 0 3 else Report 1 m0 n 0.
Example C49_example :
  (forall n, 2 <= n -> mkl_contract mkl_all n n) /\
  (exists st, session mkl_all 400 (new_feast (FConfig 3 false 5)) [12; 7] = FDone st /\ f_guess (f_cfg st) = 7 /\ f_rows st = 7 /\ r_final (f_info st) = 7 /\ f_calls st = 5%nat) /\
  (exists st, session mkl_all 400 (new_feast (FConfig 3 true 5)) [12; 12] = FDone st /\ f_guess (f_cfg st) = 12 /\ f_calls st = 5%nat).
Proof.
  split.
  - intros n Hn. split; [lia|]. intros k m0 b Hm. unfold mkl_all. destruct (Z.ltb_spec m0 n); cbn; repeat split; try lia; discriminate.
  - split; eexists; (split; [vm_compute; reflexivity|]); repeat split.
Qed.
