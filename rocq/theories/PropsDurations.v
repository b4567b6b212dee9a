(* C108: printed durations and numbers. *)
From Verif Require Import Base Durations DurationsProofs.
From Coq Require Import QArith Qround Qabs Lqa Lia.
Local Open Scope Z_scope.

(** ** Specification *)
(** What a reader takes a printed duration for, in nanoseconds, and the unit of its last digit. *)
Definition power (k : nat) : Z := 10 ^ Z.of_nat k.
Inductive reads : text -> Q -> Q -> Prop :=
| reads_ms : forall k n, reads [Fixed k n; Ms] (inject_Z n * inject_Z millisecond / inject_Z (power k)) (inject_Z millisecond / inject_Z (power k))
| reads_sec : forall k n, reads [Fixed k n; Sec] (inject_Z n * inject_Z second / inject_Z (power k)) (inject_Z second / inject_Z (power k))
| reads_min : forall m s, 0 <= s < 60 -> reads [Fixed 0 m; Colon; Two s] (inject_Z ((60 * m + s) * second)) (inject_Z second)
| reads_hour : forall h m s, 0 <= m < 60 -> 0 <= s < 60 -> reads [Fixed 0 h; Colon; Two m; Colon; Two s] (inject_Z ((3600 * h + 60 * m + s) * second)) (inject_Z second).
(** The full claims: the printed value is that of the clock to half a unit of the last digit; the report
    printed by the C++ part and that printed by the Python part are the same. *)
Definition exact_to_digits (t : text) (x : Q) : Prop := exists v u, reads t v u /\ (Qabs (v - x) <= u / 2)%Q.
Definition C108_claim : Prop := forall ns, exact_to_digits (chrono_str ns) (inject_Z ns).
Definition C108_same_claim : Prop := forall ns, chrono_str ns = pretty_duration (inject_Z ns / inject_Z second).

(** ** Helpers *)
Lemma reads_fun : forall t v u v' u', reads t v u -> reads t v' u' -> v = v' /\ u = u'.
Proof. intros t v u v' u' H H'. destruct H; inversion H'; subst; auto. Qed.
Lemma below_Z : forall a b, (a <? b) = below (inject_Z a) (inject_Z b).
Proof.
  intros a b. unfold below. destruct (Qlt_le_dec (inject_Z a) (inject_Z b)) as [H|H].
  - rewrite <- Zlt_Qlt in H. apply Z.ltb_lt. exact H.
  - rewrite <- Zle_Qle in H. apply Z.ltb_ge. exact H.
Qed.
Lemma below_true : forall a b, below a b = true <-> (a < b)%Q.
Proof. intros a b. unfold below. destruct (Qlt_le_dec a b); split; intros H; try reflexivity; try assumption; try discriminate. exfalso. lra. Qed.
Lemma below_false : forall a b, below a b = false <-> (b <= a)%Q.
Proof. intros a b. unfold below. destruct (Qlt_le_dec a b); split; intros H; try reflexivity; try assumption; try discriminate. exfalso. lra. Qed.
Lemma floor_div : forall a b, 0 < b -> Qfloor (inject_Z a / inject_Z b) = a / b.
Proof.
  intros a b H. apply floor_unique.
  - apply Qle_shift_div_l; [change 0%Q with (inject_Z 0); rewrite <- Zlt_Qlt; exact H|]. rewrite <- inject_Z_mult, <- Zle_Qle. pose proof (Z.mul_div_le a b H). lia.
  - apply Qlt_shift_div_r; [change 0%Q with (inject_Z 0); rewrite <- Zlt_Qlt; exact H|]. change 1%Q with (inject_Z 1). rewrite <- inject_Z_plus, <- inject_Z_mult, <- Zlt_Qlt.
    pose proof (Z.mul_succ_div_gt a b H). lia.
Qed.
Lemma quot_div : forall a b, 0 <= a -> 0 < b -> Z.quot a b = a / b.
Proof. intros a b Ha Hb. apply Z.quot_div_nonneg; assumption. Qed.
Lemma cut_Z : forall ns b, 0 < b -> (cut (inject_Z b) (inject_Z ns) == inject_Z (ns / b) * inject_Z b)%Q.
Proof. intros ns b H. unfold cut. rewrite (floor_div ns b H). reflexivity. Qed.
Lemma one_unit : forall n u, (inject_Z n * inject_Z u / inject_Z (power 0) == inject_Z n * inject_Z u)%Q.
Proof. intros n u. unfold power. cbn [Z.of_nat]. change (10 ^ 0) with 1. change (inject_Z 1) with 1%Q. field. Qed.
Lemma unit_half : forall u, (inject_Z u / inject_Z (power 0) == inject_Z u)%Q.
Proof. intros u. unfold power. cbn [Z.of_nat]. change (10 ^ 0) with 1. change (inject_Z 1) with 1%Q. field. Qed.
(** Minutes, seconds and hours of a whole number of seconds. *)
Lemma clock : forall ns, 0 <= ns ->
  ns / (60 * second) = ns / second / 60 /\ ns / second - 60 * (ns / second / 60) = (ns / second) mod 60.
Proof.
  intros ns H. split.
  - rewrite Z.mul_comm. symmetry. apply Z.div_div; unfold second; lia.
  - pose proof (Z.div_mod (ns / second) 60 ltac:(lia)). lia.
Qed.
Definition close (v u x : Q) : Prop := (Qabs (v - x) <= u / 2 \/ (v <= x /\ x < v + u))%Q.
Ltac zq := repeat (rewrite below_Z in *).
Lemma cpp_reads : forall ns, exists v u, reads (chrono_str ns) v u /\ (v == shown_cpp (inject_Z ns))%Q /\ close v u (inject_Z ns) /\ (0 < u)%Q.
Proof.
  intros ns. unfold chrono_str, shown_cpp, glued.
  replace (below (inject_Z ns) ms) with (ns <? millisecond) by apply below_Z. rewrite <- !below_Z.
  destruct (ns <? millisecond) eqn:E1.
  { eexists _, _. split; [apply reads_ms|]. split; [reflexivity|]. split; [left; apply (rounded_close 2 ms (inject_Z ns)); reflexivity|reflexivity]. }
  apply Z.ltb_ge in E1. assert (P : 0 <= ns) by (unfold millisecond in E1; lia).
  destruct (ns <? 10 * millisecond) eqn:E2.
  { eexists _, _. split; [apply reads_ms|]. split; [reflexivity|]. split; [left; apply (rounded_close 1 ms (inject_Z ns)); reflexivity|reflexivity]. }
  destruct (ns <? 100 * millisecond) eqn:E3.
  { rewrite quot_div by (unfold millisecond; lia). eexists _, _. split; [apply reads_ms|]. split; [rewrite one_unit; symmetry; apply cut_Z; reflexivity|].
    split; [right|reflexivity]. rewrite one_unit, unit_half, <- (cut_Z ns millisecond) by reflexivity. apply cut_close. reflexivity. }
  destruct (ns <? 10 * second) eqn:E4.
  { eexists _, _. split; [apply reads_sec|]. split; [reflexivity|]. split; [left; apply (rounded_close 2 sec (inject_Z ns)); reflexivity|reflexivity]. }
  destruct (ns <? 20 * second) eqn:E5.
  { eexists _, _. split; [apply reads_sec|]. split; [reflexivity|]. split; [left; apply (rounded_close 1 sec (inject_Z ns)); reflexivity|reflexivity]. }
  pose proof (cut_close sec (inject_Z ns) eq_refl) as C. unfold sec in *. rewrite (cut_Z ns second) in C by reflexivity.
  destruct (ns <? 60 * second) eqn:E6.
  { rewrite quot_div by (unfold second; lia). eexists _, _. split; [apply reads_sec|]. split; [rewrite one_unit; symmetry; apply cut_Z; reflexivity|].
    split; [right|reflexivity]. rewrite one_unit, unit_half. exact C. }
  rewrite (quot_div ns (60 * second)), (quot_div ns second) by (unfold second; lia).
  destruct (clock ns P) as [K1 K2]. rewrite K1, K2. pose proof (Z.mod_pos_bound (ns / second) 60 ltac:(lia)) as B.
  assert (N : 0 <= ns / second / 60) by (apply Z.div_pos; [apply Z.div_pos; [exact P|reflexivity]|lia]).
  pose proof (Z.div_mod (ns / second) 60 ltac:(lia)) as D.
  destruct (ns / second / 60 <? 60) eqn:E7.
  { eexists _, _. split; [apply reads_min; exact B|]. rewrite <- D, inject_Z_mult. split; [symmetry; apply cut_Z; reflexivity|]. split; [right; exact C|reflexivity]. }
  rewrite quot_div by lia. pose proof (Z.div_mod (ns / second / 60) 60 ltac:(lia)) as D2. pose proof (Z.mod_pos_bound (ns / second / 60) 60 ltac:(lia)) as B2.
  eexists _, _. split; [apply reads_hour; [lia|exact B]|].
  replace (3600 * (ns / second / 60 / 60) + 60 * (ns / second / 60 - 60 * (ns / second / 60 / 60)) + (ns / second) mod 60) with (ns / second) by lia.
  rewrite inject_Z_mult. split; [symmetry; apply cut_Z; reflexivity|]. split; [right; exact C|reflexivity].
Qed.
Lemma below_iff : forall a b c d, ((a < b)%Q <-> (c < d)%Q) -> below a b = below c d.
Proof. intros a b c d H. unfold below. destruct (Qlt_le_dec a b), (Qlt_le_dec c d); try reflexivity; exfalso; [apply H in q; lra|]. apply H in q0. lra. Qed.
Lemma fixed_eq : forall k a b, (a == b)%Q -> fixed k a = fixed k b.
Proof. intros k a b H. unfold fixed. f_equal. apply nearest_eq. rewrite H. reflexivity. Qed.
Lemma floor_eq : forall a b, (a == b)%Q -> Qfloor a = Qfloor b.
Proof. intros a b H. apply Qfloor_comp. exact H. Qed.
Lemma py_form : forall t, pretty_duration (t / sec) =
  if below t ms then [fixed 2 (t / ms); Ms]
  else if below t (inject_Z (10 * millisecond)) then [fixed 1 (t / ms); Ms]
  else if below t (inject_Z (100 * millisecond)) then [fixed 0 (t / ms); Ms]
  else if below t (inject_Z (10 * second)) then [fixed 2 (t / sec); Sec]
  else if below t (inject_Z (20 * second)) then [fixed 1 (t / sec); Sec]
  else if below t (inject_Z (60 * second)) then [fixed 0 (t / sec); Sec]
  else let m := Qfloor (t / sec) / 60 in let s := Qfloor (t / sec) mod 60 in
    if m <? 60 then [Fixed 0 m; Colon; Two s] else [Fixed 0 (m / 60); Colon; Two (m - 60 * (m / 60)); Colon; Two s].
Proof.
  intros t. unfold pretty_duration.
  assert (S : (sec == 1000000000)%Q) by reflexivity. assert (M : (ms == 1000000)%Q) by reflexivity.
  assert (X : (t / sec == t * (1 # 1000000000))%Q) by (rewrite S; field).
  assert (Y : (t / sec * inject_Z 1000 == t / ms)%Q) by (rewrite S, M; change (inject_Z 1000) with 1000%Q; field).
  assert (Z0 : (t / ms == t * (1 # 1000000))%Q) by (rewrite M; field).
  rewrite (below_iff (t / sec * inject_Z 1000) 1 t ms) by (rewrite Y, Z0, M; lra).
  rewrite (below_iff (t / sec * inject_Z 1000) (inject_Z 10) t (inject_Z (10 * millisecond))) by (rewrite Y, Z0; change (inject_Z 10) with 10%Q; change (inject_Z (10 * millisecond)) with 10000000%Q; lra).
  rewrite (below_iff (t / sec * inject_Z 1000) (inject_Z 100) t (inject_Z (100 * millisecond))) by (rewrite Y, Z0; change (inject_Z 100) with 100%Q; change (inject_Z (100 * millisecond)) with 100000000%Q; lra).
  rewrite (below_iff (t / sec) (inject_Z 10) t (inject_Z (10 * second))) by (rewrite X; change (inject_Z 10) with 10%Q; change (inject_Z (10 * second)) with 10000000000%Q; lra).
  rewrite (below_iff (t / sec) (inject_Z 20) t (inject_Z (20 * second))) by (rewrite X; change (inject_Z 20) with 20%Q; change (inject_Z (20 * second)) with 20000000000%Q; lra).
  rewrite (below_iff (t / sec) (inject_Z 60) t (inject_Z (60 * second))) by (rewrite X; change (inject_Z 60) with 60%Q; change (inject_Z (60 * second)) with 60000000000%Q; lra).
  rewrite !(fixed_eq _ _ _ Y).
  repeat match goal with |- (if ?b then _ else _) = _ => destruct b; [reflexivity|] end.
  set (q := (t / sec)%Q). cbv zeta.
  assert (F : Qfloor (q / inject_Z 60) = Qfloor q / 60).
  { apply floor_unique; pose proof (floor_le q) as A; pose proof (floor_lt q) as B; set (f := Qfloor q) in *;
    pose proof (Z.div_mod f 60 ltac:(lia)) as D; pose proof (Z.mod_pos_bound f 60 ltac:(lia)) as R.
    - apply Qle_shift_div_l; [reflexivity|]. rewrite <- inject_Z_mult. apply Qle_trans with (inject_Z f); [|exact A]. rewrite <- Zle_Qle. lia.
    - apply Qlt_shift_div_r; [reflexivity|]. change 1%Q with (inject_Z 1) in *. rewrite <- inject_Z_plus, <- inject_Z_mult in *. apply Qlt_le_trans with (inject_Z (f + 1)); [exact B|]. rewrite <- Zle_Qle. lia. }
  assert (G : py_int (q - inject_Z (Qfloor (q / inject_Z 60)) * inject_Z 60) = Qfloor q mod 60).
  { rewrite F. pose proof (floor_le q) as A; pose proof (floor_lt q) as B; set (f := Qfloor q) in *;
    pose proof (Z.div_mod f 60 ltac:(lia)) as D; pose proof (Z.mod_pos_bound f 60 ltac:(lia)) as R.
    assert (E : (inject_Z f == inject_Z (f / 60) * inject_Z 60 + inject_Z (f mod 60))%Q) by (rewrite <- inject_Z_mult, <- inject_Z_plus; apply inject_Z_injective; lia).
    assert (Rq : (0 <= inject_Z (f mod 60))%Q) by (change 0%Q with (inject_Z 0); rewrite <- Zle_Qle; lia).
    unfold py_int. destruct (Qlt_le_dec (q - inject_Z (f / 60) * inject_Z 60) 0) as [N|N]; [exfalso; lra|]. apply floor_unique; lra. }
  rewrite G, F. rewrite (floor_div (Qfloor q / 60) 60) by lia. reflexivity.
Qed.
Lemma py_reads : forall t, exists v u, reads (pretty_duration (t / sec)) v u /\ (v == shown_py t)%Q /\ close v u t /\ (0 < u)%Q.
Proof.
  intros t. rewrite py_form. unfold shown_py, glued.
  destruct (below t ms) eqn:E1; [eexists _, _; split; [apply reads_ms|]; split; [reflexivity|]; split; [left; apply (rounded_close 2 ms t); reflexivity|reflexivity]|].
  destruct (below t (inject_Z (10 * millisecond))) eqn:E2; [eexists _, _; split; [apply reads_ms|]; split; [reflexivity|]; split; [left; apply (rounded_close 1 ms t); reflexivity|reflexivity]|].
  destruct (below t (inject_Z (100 * millisecond))) eqn:E3; [eexists _, _; split; [apply reads_ms|]; split; [reflexivity|]; split; [left; apply (rounded_close 0 ms t); reflexivity|reflexivity]|].
  destruct (below t (inject_Z (10 * second))) eqn:E4; [eexists _, _; split; [apply reads_sec|]; split; [reflexivity|]; split; [left; apply (rounded_close 2 sec t); reflexivity|reflexivity]|].
  destruct (below t (inject_Z (20 * second))) eqn:E5; [eexists _, _; split; [apply reads_sec|]; split; [reflexivity|]; split; [left; apply (rounded_close 1 sec t); reflexivity|reflexivity]|].
  destruct (below t (inject_Z (60 * second))) eqn:E6; [eexists _, _; split; [apply reads_sec|]; split; [reflexivity|]; split; [left; apply (rounded_close 0 sec t); reflexivity|reflexivity]|].
  pose proof (cut_close sec t eq_refl) as C. assert (CE : (cut sec t == inject_Z (Qfloor (t / sec)) * inject_Z second)%Q) by reflexivity. rewrite CE in C. cbv zeta.
  set (f := Qfloor (t / sec)) in *. pose proof (Z.mod_pos_bound f 60 ltac:(lia)) as B. pose proof (Z.div_mod f 60 ltac:(lia)) as D.
  destruct (f / 60 <? 60) eqn:E7.
  { eexists _, _. split; [apply reads_min; exact B|]. rewrite <- D, inject_Z_mult. split; [symmetry; exact CE|]. split; [right; exact C|reflexivity]. }
  pose proof (Z.div_mod (f / 60) 60 ltac:(lia)) as D2. pose proof (Z.mod_pos_bound (f / 60) 60 ltac:(lia)) as B2.
  eexists _, _. split; [apply reads_hour; [lia|exact B]|].
  replace (3600 * (f / 60 / 60) + 60 * (f / 60 - 60 * (f / 60 / 60)) + f mod 60) with f by lia.
  rewrite inject_Z_mult. split; [symmetry; exact CE|]. split; [right; exact C|reflexivity].
Qed.
Lemma glued_case : forall (R : Q -> Prop) a f g x, ((x < a)%Q -> R (f x)) -> ((a <= x)%Q -> R (g x)) -> R (glued a f g x).
Proof. intros R a f g x Hf Hg. unfold glued, below. destruct (Qlt_le_dec x a); auto. Qed.
Ltac consts := change ms with 1000000%Q in *; change sec with 1000000000%Q in *;
  change (inject_Z (10 * millisecond)) with 10000000%Q in *; change (inject_Z (100 * millisecond)) with 100000000%Q in *;
  change (inject_Z (10 * second)) with 10000000000%Q in *; change (inject_Z (20 * second)) with 20000000000%Q in *; change (inject_Z (60 * second)) with 60000000000%Q in *.
Lemma rounded_rel : forall k unit x b, (0 < unit)%Q -> (unit / inject_Z (10 ^ Z.of_nat k) / 2 <= b)%Q -> (Qabs (rounded k unit x - x) <= b)%Q.
Proof. intros k unit x b Hu H. apply Qle_trans with (unit / inject_Z (10 ^ Z.of_nat k) / 2)%Q; [apply rounded_close; exact Hu|exact H]. Qed.
Lemma cut_rel : forall unit x b, (0 < unit)%Q -> (unit <= b)%Q -> (Qabs (cut unit x - x) <= b)%Q.
Proof. intros unit x b Hu H. destruct (cut_close unit x Hu). apply Qabs_Qle_condition. split; lra. Qed.
Lemma shown_cpp_rel : forall x, (ms <= x)%Q -> (Qabs (shown_cpp x - x) <= x / 10)%Q.
Proof.
  intros x H. assert (X : (x / 10 == x * (1 # 10))%Q) by field. rewrite X. unfold shown_cpp.
  apply (glued_case (fun v => (Qabs (v - x) <= x * (1 # 10))%Q)); intros A; [exfalso; lra|clear A].
  repeat (apply (glued_case (fun v => (Qabs (v - x) <= x * (1 # 10))%Q)); intros ?; [(apply rounded_rel; [reflexivity|]) || (apply cut_rel; [reflexivity|])|]);
  try (apply cut_rel; [reflexivity|]); consts; try change (1000000 / inject_Z (10 ^ Z.of_nat 1) / 2)%Q with (1000000 / 10 / 2)%Q;
  try change (1000000000 / inject_Z (10 ^ Z.of_nat 1) / 2)%Q with (1000000000 / 10 / 2)%Q; try change (1000000000 / inject_Z (10 ^ Z.of_nat 2) / 2)%Q with (1000000000 / 100 / 2)%Q;
  unfold Qdiv; cbn [Qinv Qnum Qden]; try lra.
Qed.
Lemma shown_py_rel : forall x, (ms <= x)%Q -> (Qabs (shown_py x - x) <= x / 20)%Q.
Proof.
  intros x H. assert (X : (x / 20 == x * (1 # 20))%Q) by field. rewrite X. unfold shown_py.
  apply (glued_case (fun v => (Qabs (v - x) <= x * (1 # 20))%Q)); intros A; [exfalso; lra|clear A].
  repeat (apply (glued_case (fun v => (Qabs (v - x) <= x * (1 # 20))%Q)); intros ?; [(apply rounded_rel; [reflexivity|]) || (apply cut_rel; [reflexivity|])|]);
  try (apply cut_rel; [reflexivity|]); consts; try change (1000000 / inject_Z (10 ^ Z.of_nat 1) / 2)%Q with (1000000 / 10 / 2)%Q;
  try change (1000000 / inject_Z (10 ^ Z.of_nat 0) / 2)%Q with (1000000 / 1 / 2)%Q; try change (1000000000 / inject_Z (10 ^ Z.of_nat 0) / 2)%Q with (1000000000 / 1 / 2)%Q;
  try change (1000000000 / inject_Z (10 ^ Z.of_nat 1) / 2)%Q with (1000000000 / 10 / 2)%Q; try change (1000000000 / inject_Z (10 ^ Z.of_nat 2) / 2)%Q with (1000000000 / 100 / 2)%Q;
  unfold Qdiv; cbn [Qinv Qnum Qden]; try lra.
Qed.

(** ** Theorems *)
(** Every duration is printed as a text that can be read in one way only, correct to the last digit shown
    (rounded, or with the rest cut off), and from a millisecond on to a tenth of itself. *)
Theorem C108_cpp_partial : forall ns, exists v u, reads (chrono_str ns) v u /\ (0 < u)%Q /\
  (Qabs (v - inject_Z ns) <= u / 2 \/ (v <= inject_Z ns /\ inject_Z ns < v + u))%Q /\
  (millisecond <= ns -> (Qabs (v - inject_Z ns) <= inject_Z ns / 10)%Q).
Proof.
  intros ns. destruct (cpp_reads ns) as (v & u & R & E & C & U). exists v, u. split; [exact R|]. split; [exact U|]. split; [exact C|].
  intros H. rewrite E. apply shown_cpp_rel. unfold ms. rewrite <- Zle_Qle. exact H.
Qed.
(** A longer duration is never printed as a shorter one, across all changes of unit. *)
Theorem C108_cpp_order : forall ns ns' v u v' u', ns <= ns' -> reads (chrono_str ns) v u -> reads (chrono_str ns') v' u' -> (v <= v')%Q.
Proof.
  intros ns ns' v u v' u' H R R'. destruct (cpp_reads ns) as (w & y & A & E & _). destruct (cpp_reads ns') as (w' & y' & A' & E' & _).
  destruct (reads_fun _ _ _ _ _ R A) as [-> _]. destruct (reads_fun _ _ _ _ _ R' A') as [-> _]. rewrite E, E'. apply cpp_mono. rewrite <- Zle_Qle. exact H.
Qed.
Theorem C108_python : forall t, exists v u, reads (pretty_duration (t / inject_Z second)) v u /\ (0 < u)%Q /\
  (Qabs (v - t) <= u / 2 \/ (v <= t /\ t < v + u))%Q /\
  ((t < inject_Z (60 * second))%Q -> (Qabs (v - t) <= u / 2)%Q) /\
  ((inject_Z millisecond <= t)%Q -> (Qabs (v - t) <= t / 20)%Q).
Proof.
  intros t. destruct (py_reads t) as (v & u & R & E & C & U). exists v, u. split; [exact R|]. split; [exact U|]. split; [exact C|]. split.
  - intros H. change (inject_Z second) with sec in R. rewrite py_form in R.
    repeat match type of R with context [below t ?b] => destruct (below t b) eqn:? end;
    try (inversion R; subst v u; first [exact (rounded_close 2 ms t eq_refl)|exact (rounded_close 1 ms t eq_refl)|exact (rounded_close 0 ms t eq_refl)|exact (rounded_close 2 sec t eq_refl)|exact (rounded_close 1 sec t eq_refl)|exact (rounded_close 0 sec t eq_refl)]).
    exfalso. apply below_true in H. congruence.
  - intros H. rewrite E. apply shown_py_rel. exact H.
Qed.
Theorem C108_python_order : forall t t' v u v' u', (t <= t')%Q ->
  reads (pretty_duration (t / inject_Z second)) v u -> reads (pretty_duration (t' / inject_Z second)) v' u' -> (v <= v')%Q.
Proof.
  intros t t' v u v' u' H R R'. destruct (py_reads t) as (w & y & A & E & _). destruct (py_reads t') as (w' & y' & A' & E' & _).
  destruct (reads_fun _ _ _ _ _ R A) as [-> _]. destruct (reads_fun _ _ _ _ _ R' A') as [-> _]. rewrite E, E'. apply py_mono. exact H.
Qed.
(** When the two parts print the same: always, except in the two ranges where only the C++ part cuts off. *)
Definition rounds_up (ns unit : Z) : Prop := unit < 2 * (ns mod unit) \/ (2 * (ns mod unit) = unit /\ Z.Odd (ns / unit)).
Lemma nearest_div : forall ns unit, 0 < unit -> (nearest (inject_Z ns / inject_Z unit * inject_Z (10 ^ Z.of_nat 0)) = ns / unit <-> ~ rounds_up ns unit).
Proof.
  intros ns unit H. assert (Hq : (0 < inject_Z unit)%Q) by (change 0%Q with (inject_Z 0); rewrite <- Zlt_Qlt; exact H).
  rewrite (nearest_eq (inject_Z ns / inject_Z unit * inject_Z (10 ^ Z.of_nat 0)) (inject_Z ns / inject_Z unit)) by (change (inject_Z (10 ^ Z.of_nat 0)) with 1%Q; ring).
  unfold nearest. rewrite (floor_div ns unit H). pose proof (Z.div_mod ns unit ltac:(lia)) as D.
  assert (E : (inject_Z ns / inject_Z unit - inject_Z (ns / unit) == inject_Z (ns mod unit) / inject_Z unit)%Q).
  { assert (Q1 : (inject_Z ns == inject_Z unit * inject_Z (ns / unit) + inject_Z (ns mod unit))%Q) by (rewrite <- inject_Z_mult, <- inject_Z_plus; apply inject_Z_injective; exact D). rewrite Q1. field. lra. }
  assert (X : forall c, Qcompare (inject_Z (ns mod unit) / inject_Z unit) (1 # 2) = c <-> Z.compare (2 * (ns mod unit)) unit = c).
  { intros c. replace ((inject_Z (ns mod unit) / inject_Z unit) ?= (1 # 2))%Q with (2 * (ns mod unit) ?= unit); [reflexivity|].
    symmetry. destruct (Z.compare_spec (2 * (ns mod unit)) unit) as [C|C|C].
    - apply Qeq_alt. assert (Q1 : (inject_Z unit == 2 * inject_Z (ns mod unit))%Q) by (change 2%Q with (inject_Z 2); rewrite <- inject_Z_mult; apply inject_Z_injective; lia).
      rewrite Q1. field. intros Q2. rewrite Q2 in Q1. lra.
    - apply Qlt_alt. apply Qlt_shift_div_r; [exact Hq|]. rewrite Zlt_Qlt, inject_Z_mult in C. change (inject_Z 2) with 2%Q in C. lra.
    - apply Qgt_alt. apply Qlt_shift_div_l; [exact Hq|]. rewrite Zlt_Qlt, inject_Z_mult in C. change (inject_Z 2) with 2%Q in C. lra. }
  rewrite E. unfold rounds_up. destruct (Z.compare_spec (2 * (ns mod unit)) unit) as [C|C|C].
  - rewrite (proj2 (X Eq)) by reflexivity. rewrite <- Z.odd_spec, <- Z.negb_even. destruct (Z.even (ns / unit)); cbn [negb]; split; intros K; try lia.
  - rewrite (proj2 (X Lt)) by reflexivity. split; intros K; [intros [?|[? _]]; lia|reflexivity].
  - rewrite (proj2 (X Gt)) by reflexivity. split; intros K; [exfalso; lia|exfalso; apply K; left; exact C].
Qed.
Theorem C108_same_exact : forall ns,
  chrono_str ns = pretty_duration (inject_Z ns / inject_Z second) <->
  ~ ((10 * millisecond <= ns < 100 * millisecond /\ rounds_up ns millisecond) \/ (20 * second <= ns < 60 * second /\ rounds_up ns second)).
Proof.
  intros ns. change (inject_Z ns / inject_Z second)%Q with (inject_Z ns / sec)%Q. rewrite py_form. unfold chrono_str.
  replace (below (inject_Z ns) ms) with (ns <? millisecond) by apply below_Z. rewrite <- !below_Z.
  assert (M : millisecond = 1000000) by reflexivity. assert (S : second = 1000000000) by reflexivity.
  destruct (Z.ltb_spec ns millisecond) as [E1|E1]; [split; [intros _ [[? _]|[? _]]; lia|reflexivity]|].
  destruct (Z.ltb_spec ns (10 * millisecond)) as [E2|E2]; [split; [intros _ [[? _]|[? _]]; lia|reflexivity]|].
  destruct (Z.ltb_spec ns (100 * millisecond)) as [E3|E3].
  { rewrite quot_div by lia. pose proof (nearest_div ns millisecond ltac:(lia)) as N. split.
    - intros H. injection H as H. intros [[_ K]|[? _]]; [|lia]. apply (proj1 N); [symmetry; exact H|exact K].
    - intros H. unfold fixed, ms. rewrite (proj2 N); [reflexivity|]. intros K. apply H. left. split; [lia|exact K]. }
  destruct (Z.ltb_spec ns (10 * second)) as [E4|E4]; [split; [intros _ [[? _]|[? _]]; lia|reflexivity]|].
  destruct (Z.ltb_spec ns (20 * second)) as [E5|E5]; [split; [intros _ [[? _]|[? _]]; lia|reflexivity]|].
  destruct (Z.ltb_spec ns (60 * second)) as [E6|E6].
  { rewrite quot_div by lia. pose proof (nearest_div ns second ltac:(lia)) as N. split.
    - intros H. injection H as H. intros [[? _]|[_ K]]; [lia|]. apply (proj1 N); [symmetry; exact H|exact K].
    - intros H. unfold fixed, sec. rewrite (proj2 N); [reflexivity|]. intros K. apply H. right. split; [lia|exact K]. }
  split; [intros _ [[? _]|[? _]]; lia|intros _].
  unfold sec. rewrite (floor_div ns second) by lia. rewrite (quot_div ns (60 * second)), (quot_div ns second) by lia.
  destruct (clock ns ltac:(lia)) as [K1 K2]. rewrite K1, K2. cbv zeta. destruct (ns / second / 60 <? 60) eqn:E7; [reflexivity|].
  rewrite quot_div; [reflexivity| |lia]. apply Z.div_pos; [apply Z.div_pos; lia|lia].
Qed.
Theorem C108_refuted : ~ C108_claim.
Proof.
  intros H. destruct (H 21900000) as (v & u & R & B).
  assert (T : chrono_str 21900000 = [Fixed 0 21; Ms]) by (vm_compute; reflexivity). rewrite T in R. inversion R; subst. vm_compute in B. apply B. reflexivity.
Qed.
Theorem C108_same_refuted : ~ C108_same_claim.
Proof. intros H. specialize (H 21900000). vm_compute in H. discriminate. Qed.
Example C108_example :
  chrono_str 21900000 = [Fixed 0 21; Ms] /\ pretty_duration (219 # 10000) = [Fixed 0 22; Ms] /\ chrono_str 999999 = [Fixed 2 100; Ms] /\
  chrono_str 6217100000000 = [Fixed 0 1; Colon; Two 43; Colon; Two 37] /\ pretty_duration (62171 # 10) = [Fixed 0 1; Colon; Two 43; Colon; Two 37].
Proof. vm_compute. repeat split. Qed.

(** ** Large numbers *)
(** What a reader takes a number with a suffix for. *)
Inductive denotes : text -> Q -> Prop :=
| denotes_plain : forall k n, denotes [Fixed k n] (inject_Z n / inject_Z (power k))
| denotes_suffix : forall k n e, denotes [Fixed k n; Suffix e] (inject_Z n / inject_Z (power k) * inject_Z (power e)).
Definition three_places (t : text) : Prop := exists k n rest, t = Fixed k n :: rest /\ 100 <= n <= 999 /\ (k <= 3)%nat.
Definition C108_suffix_claim : Prop := forall x, (1 # 10 <= x)%Q -> exists v, denotes (with_suffix x) v /\ (Qabs (v - x) <= x / 200)%Q.

Lemma nearest_three : forall y, (1999 # 20 <= y)%Q -> (y < 1999 # 2)%Q -> 100 <= nearest y <= 999 /\ (Qabs (inject_Z (nearest y) - y) <= y / 200)%Q.
Proof.
  intros y H1 H2. assert (A : 100 <= nearest y) by (change 100 with (nearest (1999 # 20)); apply nearest_mono; exact H1).
  assert (B : nearest y <= 999).
  { unfold nearest. pose proof (floor_le y) as F. pose proof (floor_lt y) as G.
    assert (K : (inject_Z (Qfloor y) < inject_Z 1000)%Q) by (change (inject_Z 1000) with 1000%Q; lra). rewrite <- Zlt_Qlt in K.
    destruct (Z.eq_dec (Qfloor y) 999) as [E|E].
    - rewrite E in *. change (inject_Z 999) with 999%Q in *. assert (L : (y - 999 < 1 # 2)%Q) by lra. rewrite (proj1 (Qlt_alt _ _) L). lia.
    - destruct (y - inject_Z (Qfloor y) ?= 1 # 2)%Q; [destruct (Z.even (Qfloor y))| |]; lia. }
  split; [split; assumption|]. assert (X : (y / 200 == y * (1 # 200))%Q) by field. rewrite X. pose proof (nearest_bound y) as N. apply Qabs_Qle_condition in N. apply Qabs_Qle_condition.
  destruct (Qlt_le_dec y 100) as [L|L]; [|lra].
  assert (U : nearest y <= 100) by (change 100 with (nearest 100); apply nearest_mono; apply Qlt_le_weak; exact L).
  replace (nearest y) with 100 in * by lia. change (inject_Z 100) with 100%Q in *. lra.
Qed.
Lemma decade_true : forall q e, decade q e = true <-> (q * inject_Z (10 ^ (2 - e)) < 1999 # 2)%Q.
Proof. intros q e. apply below_true. Qed.
Lemma three_ok : forall q, (1 # 10 <= q)%Q -> (q < 1999 # 2)%Q -> exists k n, three_digits q = Fixed k n /\ 100 <= n <= 999 /\ (k <= 3)%nat /\ (Qabs (inject_Z n / inject_Z (power k) - q) <= q / 200)%Q.
Proof.
  intros q H1 H2.
  assert (G : forall k, (1999 # 20 <= q * inject_Z (power k))%Q -> (q * inject_Z (power k) < 1999 # 2)%Q ->
    100 <= nearest (q * inject_Z (power k)) <= 999 /\ (Qabs (inject_Z (nearest (q * inject_Z (power k))) / inject_Z (power k) - q) <= q / 200)%Q).
  { intros k A B. destruct (nearest_three _ A B) as [N C]. split; [exact N|]. pose proof (power_pos k) as P. fold (power k) in P. set (w := inject_Z (power k)) in *. set (n := inject_Z (nearest (q * w))) in *.
    assert (E : (n / w - q == (n - q * w) * / w)%Q) by (field; lra). assert (I : (0 < / w)%Q) by (apply Qinv_lt_0_compat; exact P).
    rewrite E, Qabs_Qmult, (Qabs_pos (/ w)) by lra. apply Qle_trans with (q * w / 200 * / w)%Q; [apply Qmult_le_compat_r; [exact C|lra]|].
    assert (F : (q * w / 200 * / w == q / 200)%Q) by (field; lra). lra. }
  unfold three_digits, find.
  destruct (decade q (-1)) eqn:D1.
  { apply decade_true in D1. change (10 ^ (2 - -1)) with (power 3) in D1. eexists _, _. split; [reflexivity|]. change (10 ^ Z.of_nat (Z.to_nat (2 - -1))) with (power 3). change (Z.to_nat (2 - -1)) with 3%nat.
    destruct (G 3%nat) as [A B]; [change (inject_Z (power 3)) with 1000%Q; lra|exact D1|]. repeat split; try tauto; lia. }
  assert (D1' : ~ (q * 1000 < 1999 # 2)%Q) by (intros K; assert (decade q (-1) = true) by (apply decade_true; exact K); congruence).
  destruct (decade q 0) eqn:D2.
  { apply decade_true in D2. change (10 ^ (2 - 0)) with (power 2) in D2. eexists _, _. split; [reflexivity|]. change (10 ^ Z.of_nat (Z.to_nat (2 - 0))) with (power 2). change (Z.to_nat (2 - 0)) with 2%nat.
    destruct (G 2%nat) as [A B]; [change (inject_Z (power 2)) with 100%Q; lra|exact D2|]. repeat split; try tauto; lia. }
  assert (D2' : ~ (q * 100 < 1999 # 2)%Q) by (intros K; assert (decade q 0 = true) by (apply decade_true; exact K); congruence).
  destruct (decade q 1) eqn:D3.
  { apply decade_true in D3. change (10 ^ (2 - 1)) with (power 1) in D3. eexists _, _. split; [reflexivity|]. change (10 ^ Z.of_nat (Z.to_nat (2 - 1))) with (power 1). change (Z.to_nat (2 - 1)) with 1%nat.
    destruct (G 1%nat) as [A B]; [change (inject_Z (power 1)) with 10%Q; lra|exact D3|]. repeat split; try tauto; lia. }
  assert (D3' : ~ (q * 10 < 1999 # 2)%Q) by (intros K; assert (decade q 1 = true) by (apply decade_true; exact K); congruence).
  assert (D4 : decade q 2 = true) by (apply decade_true; change (inject_Z (10 ^ (2 - 2))) with 1%Q; lra). rewrite D4.
  eexists _, _. split; [reflexivity|]. change (10 ^ Z.of_nat (Z.to_nat (2 - 2))) with (power 0). change (Z.to_nat (2 - 2)) with 0%nat.
  destruct (G 0%nat) as [A B]; [change (inject_Z (power 0)) with 1%Q; lra|change (inject_Z (power 0)) with 1%Q; lra|]. repeat split; try tauto; lia.
Qed.
Lemma three_expo : forall q, (1999 # 2 <= q)%Q -> three_digits q = Expo.
Proof.
  intros q H. unfold three_digits, find.
  assert (D : forall e, (1 <= inject_Z (10 ^ (2 - e)))%Q -> decade q e = false).
  { intros e P. unfold decade. apply below_false. apply Qle_trans with (q * 1)%Q; [lra|]. rewrite !(Qmult_comm q). apply Qmult_le_compat_r; [exact P|lra]. }
  rewrite !D by (vm_compute; discriminate). reflexivity.
Qed.
(** From 0.1 up to 999.5 G three digits are shown, never exponent notation, with an error of at most one in
    two hundred; from there on the text is in exponent notation. *)
Theorem C108_suffix_partial : forall x, (1 # 10 <= x)%Q ->
  ((x < 999500000000)%Q -> three_places (with_suffix x) /\ exists v, denotes (with_suffix x) v /\ (Qabs (v - x) <= x / 200)%Q) /\
  ((999500000000 <= x)%Q -> with_suffix x = [Expo; Suffix 9]).
Proof.
  intros x H.
  assert (G : forall e, (0 <= e)%Z -> (1 # 10 <= x / inject_Z (10 ^ e))%Q -> (x / inject_Z (10 ^ e) < 1999 # 2)%Q ->
    three_places [three_digits (x / inject_Z (10 ^ e)); Suffix (Z.to_nat e)] /\ exists v, denotes [three_digits (x / inject_Z (10 ^ e)); Suffix (Z.to_nat e)] v /\ (Qabs (v - x) <= x / 200)%Q).
  { intros e He A B. destruct (three_ok _ A B) as (k & n & E & N & K & C). rewrite E. split; [exists k, n; eexists; split; [reflexivity|split; assumption]|].
    eexists. split; [apply denotes_suffix|]. unfold power at 2. rewrite Z2Nat.id by exact He.
    pose proof (power_pos (Z.to_nat e)) as P. rewrite Z2Nat.id in P by exact He. set (w := inject_Z (10 ^ e)) in *. set (m := (inject_Z n / inject_Z (power k))%Q) in *.
    assert (F : (m * w - x == (m - x / w) * w)%Q) by (field; lra). rewrite F, Qabs_Qmult, (Qabs_pos w) by lra.
    apply Qle_trans with (x / w / 200 * w)%Q; [apply Qmult_le_compat_r; [exact C|lra]|]. assert (F2 : (x / w / 200 * w == x / 200)%Q) by (field; lra). lra. }
  unfold with_suffix, find.
  assert (Dv9 : (x / inject_Z (10 ^ 9) == x * (1 # 1000000000))%Q) by (change (inject_Z (10 ^ 9)) with 1000000000%Q; field).
  assert (Dv6 : (x / inject_Z (10 ^ 6) == x * (1 # 1000000))%Q) by (change (inject_Z (10 ^ 6)) with 1000000%Q; field).
  assert (Dv3 : (x / inject_Z (10 ^ 3) == x * (1 # 1000))%Q) by (change (inject_Z (10 ^ 3)) with 1000%Q; field).
  destruct (below ((999 # 1000) * inject_Z (10 ^ 9)) x) eqn:B9.
  { apply below_true in B9. change ((999 # 1000) * inject_Z (10 ^ 9))%Q with ((999 # 1000) * 1000000000)%Q in B9. split; intros L.
    - apply G; [lia|rewrite Dv9; lra|rewrite Dv9; lra].
    - rewrite three_expo by (rewrite Dv9; lra). reflexivity. }
  apply below_false in B9. change ((999 # 1000) * inject_Z (10 ^ 9))%Q with ((999 # 1000) * 1000000000)%Q in B9.
  split; [intros _|intros L; exfalso; lra].
  destruct (below ((999 # 1000) * inject_Z (10 ^ 6)) x) eqn:B6.
  { apply below_true in B6. change ((999 # 1000) * inject_Z (10 ^ 6))%Q with ((999 # 1000) * 1000000)%Q in B6. apply G; [lia|rewrite Dv6; lra|rewrite Dv6; lra]. }
  apply below_false in B6. change ((999 # 1000) * inject_Z (10 ^ 6))%Q with ((999 # 1000) * 1000000)%Q in B6.
  destruct (below ((999 # 1000) * inject_Z (10 ^ 3)) x) eqn:B3.
  { apply below_true in B3. change ((999 # 1000) * inject_Z (10 ^ 3))%Q with ((999 # 1000) * 1000)%Q in B3. apply G; [lia|rewrite Dv3; lra|rewrite Dv3; lra]. }
  apply below_false in B3. change ((999 # 1000) * inject_Z (10 ^ 3))%Q with ((999 # 1000) * 1000)%Q in B3.
  destruct (three_ok x H ltac:(lra)) as (k & n & E & N & K & C). rewrite E. split; [exists k, n; eexists; split; [reflexivity|split; assumption]|].
  eexists. split; [apply denotes_plain|]. exact C.
Qed.
Theorem C108_suffix_refuted : ~ C108_suffix_claim.
Proof.
  intros H. destruct (H 2000000000000%Q) as (v & D & _); [vm_compute; discriminate|].
  assert (T : with_suffix 2000000000000 = [Expo; Suffix 9]) by (vm_compute; reflexivity). rewrite T in D. inversion D.
Qed.
(** The second example in the comments of format.hpp:8 and misc.py:126 is 5395984 -> 5.39M; it is 5.40M. *)
Example C108_suffix_example :
  with_suffix 14226 = [Fixed 1 142; Suffix 3] /\ with_suffix 5395984 = [Fixed 2 540; Suffix 6] /\ with_suffix (9992 # 10) = [Fixed 3 999; Suffix 3] /\ with_suffix 12 = [Fixed 1 120].
Proof. vm_compute. repeat split. Qed.
