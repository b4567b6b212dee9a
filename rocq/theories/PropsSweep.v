(* C82: a parameter sweep puts every result at the place of its parameters *)
From Verif Require Import Base Threads ThreadsSpec ParallelFor ForSpec PropsThreads Sweep.
From Coq Require Import QArith Qround Permutation.
Local Open Scope nat_scope.

(** ** Specification *)

(** [args] are the values of the variables at [idx] *)
Definition picked {V} (vars : list (list V)) (idx : list nat) (args : list V) : Prop :=
  Forall2 (fun vi x => nth_error (fst vi) (snd vi) = Some x) (combine vars idx) args /\ length idx = length vars.

(** ** Order of the jobs *)
Lemma prod_pos_len : forall {V} (vars : list (list V)), length (product vars) = fold_right Nat.mul 1 (map (@length V) vars).
Proof.
  induction vars as [|v t IH]; cbn [product map fold_right]; [reflexivity|]. rewrite <- IH. clear IH.
  induction v as [|x v IH]; cbn; [reflexivity|]. rewrite app_length, map_length, IH. reflexivity.
Qed.
Lemma nth_blocks : forall {A B} (g : A -> list B) n l i j x y, (forall a, In a l -> length (g a) = n) ->
  nth_error l i = Some x -> nth_error (g x) j = Some y -> nth_error (flat_map g l) (i * n + j) = Some y.
Proof.
  intros A B g n. induction l as [|a l IH]; intros [|i] j x y HN HI HJ; try discriminate HI.
  - cbn in *. injection HI as ->. rewrite nth_error_app1; [exact HJ|]. apply nth_error_Some. congruence.
  - cbn [flat_map]. replace (S i * n + j) with (length (g a) + (i * n + j)) by (rewrite (HN a) by (now left); cbn; lia).
    rewrite nth_error_app2 by lia. replace (length (g a) + (i * n + j) - length (g a)) with (i * n + j) by lia.
    apply IH with x; auto. intros b Hb. apply HN. now right.
Qed.

(** The job at flat position [idx] has the values at [idx]. *)
Theorem C82_jobs : forall V (vars : list (list V)) idx args, picked vars idx args ->
  nth_error (product vars) (flat_index (map (@length V) vars) idx) = Some args.
Proof.
  intros V vars. induction vars as [|v vars IH]; intros [|i idx] args [H L]; try discriminate L.
  - inversion H. reflexivity.
  - cbn in H. inversion H as [|? y ? args' HX HT]; subst. cbn [product map flat_index].
    rewrite <- prod_pos_len. apply nth_blocks with y.
    + intros a _. now rewrite map_length.
    + exact HX.
    + rewrite nth_error_map. rewrite (IH idx args'); [reflexivity|]. split; [exact HT|now injection L].
Qed.
Lemma nth_map_id : forall {X} (l : list X) i x, nth_error l i = Some x -> i < length l.
Proof. intros. apply nth_error_Some. congruence. Qed.

(** Different positions, different indices: no job is counted twice. *)
Lemma flat_bound : forall shape idx, Forall2 (fun i d => i < d) idx shape -> flat_index shape idx < fold_right Nat.mul 1 shape.
Proof.
  intros shape idx H. induction H as [|i d idx shape HI HT IH]; cbn [flat_index fold_right]; [lia|].
  assert (i * fold_right Nat.mul 1 shape + fold_right Nat.mul 1 shape <= d * fold_right Nat.mul 1 shape) by nia. lia.
Qed.
Theorem C82_places_differ : forall shape idx idx', Forall2 (fun i d => i < d) idx shape -> Forall2 (fun i d => i < d) idx' shape ->
  flat_index shape idx = flat_index shape idx' -> idx = idx'.
Proof.
  intros shape. induction shape as [|d shape IH]; intros idx idx' H H' E; inversion H; inversion H'; subst; [reflexivity|].
  cbn [flat_index] in E.
  match goal with A : Forall2 _ ?l1 shape, B : Forall2 _ ?l2 shape |- ?x :: ?l1 = ?y :: ?l2 =>
    pose proof (flat_bound _ _ A) as B1; pose proof (flat_bound _ _ B) as B2;
    assert (EX : x = y) by nia; subst; f_equal; apply IH; auto; lia end.
Qed.

(** ** The loop *)
Section Loop.
  Context {D Res : Type}.
  Variable save_at : nat -> bool.
  Variable make_result : list (option D) -> outcome Res.
  Variable f : nat -> D.

  (** data after the jobs in [done] *)
  Definition partial (size : nat) (done : list nat) : list (option D) :=
    map (fun i => if existsb (Nat.eqb i) done then Some (f i) else None) (seq 0 size).

  Lemma upd_map_seq : forall {A} (g : nat -> A) n k s x, upd (map g (seq s n)) k x = map (fun i => if i =? s + k then x else g i) (seq s n).
  Proof.
    intros A g n. induction n as [|n IH]; intros k s x; cbn; [destruct k; reflexivity|].
    destruct k as [|k]; cbn [upd].
    - rewrite Nat.add_0_r, Nat.eqb_refl. f_equal. apply map_ext_in. intros i Hi. apply in_seq in Hi.
      destruct (Nat.eqb_spec i s); [lia|reflexivity].
    - destruct (Nat.eqb_spec s (s + S k)); [lia|]. f_equal. rewrite IH. replace (S s + k) with (s + S k) by lia. reflexivity.
  Qed.
  Lemma partial_step : forall size done i, upd (partial size done) i (Some (f i)) = partial size (i :: done).
  Proof.
    intros. unfold partial. rewrite upd_map_seq. apply map_ext. intro k. cbn [existsb]. rewrite Nat.add_0_l.
    destruct (Nat.eqb_spec k i) as [->|N]; reflexivity.
  Qed.
  Lemma length_partial : forall size done, length (partial size done) = size.
  Proof. intros. unfold partial. now rewrite map_length, seq_length. Qed.

  (** state of the loop after any number of jobs *)
  Lemma loop_from : forall size, (forall done, exists r, make_result (partial size done) = Ok r) ->
    forall jobs done r0, (forall j, In j jobs -> fst j < size /\ snd j = f (fst j)) ->
    exists r, ofold (retire save_at make_result) jobs (LoopState (partial size done) (length done) r0) =
      Ok (LoopState (partial size (rev (map fst jobs) ++ done)) (length jobs + length done) r) /\
      (jobs <> [] -> save_at (length jobs + length done) = true ->
         exists q, r = Some q /\ make_result (partial size (rev (map fst jobs) ++ done)) = Ok q) /\
      (jobs = [] -> r = r0).
  Proof.
    intros size HM. induction jobs as [|[i x] jobs IH]; intros done r0 HJ.
    - exists r0. cbn. split; [reflexivity|]. split; [congruence|auto].
    - cbn [ofold]. unfold retire at 1. cbn [fst snd ls_data ls_value ls_result].
      destruct (HJ _ (or_introl eq_refl)) as [Hi Hx]. cbn in Hi, Hx. subst x. rewrite length_partial.
      destruct (Nat.ltb_spec i size); [|lia]. rewrite partial_step.
      destruct (HM (i :: done)) as [q Hq].
      assert (EA : rev (map fst ((i, f i) :: jobs)) ++ done = rev (map fst jobs) ++ (i :: done)).
      { cbn. rewrite <- app_assoc. reflexivity. }
      assert (NX : exists r1, (if save_at (length done + 1)
             then obind (make_result (partial size (i :: done))) (fun r => Ok (LoopState (partial size (i :: done)) (length done + 1) (Some r)))
             else Ok (LoopState (partial size (i :: done)) (length done + 1) r0)) = Ok (LoopState (partial size (i :: done)) (length (i :: done)) r1) /\
             (save_at (length done + 1) = true -> r1 = Some q)).
      { rewrite Hq. cbn [obind length]. rewrite Nat.add_1_r. destruct (save_at (S (length done))); [exists (Some q)|exists r0]; split; auto; discriminate. }
      destruct NX as [r1 [-> R1]]. cbn [obind].
      destruct (IH (i :: done) r1) as [r [E [S N]]]; [intros j Hj; apply HJ; now right|].
      exists r. split; [|split].
      + rewrite E, EA. cbn [length]. do 2 f_equal. lia.
      + intros _ HS. rewrite EA. destruct jobs as [|j jobs].
        * rewrite (N eq_refl). cbn [length] in HS. rewrite Nat.add_comm in HS. rewrite (R1 HS). exists q. cbn. auto.
        * apply S; [discriminate|]. cbn [length] in *. rewrite <- HS. f_equal. lia.
      + discriminate.
  Qed.

  Lemma partial_perm : forall size done, (forall i, i < size -> In i done) -> partial size done = map (fun i => Some (f i)) (seq 0 size).
  Proof.
    intros size done H. unfold partial. apply map_ext_in. intros i Hi. apply in_seq in Hi.
    replace (existsb (Nat.eqb i) done) with true; [reflexivity|]. symmetry. apply existsb_exists. exists i. split; [apply H; lia|apply Nat.eqb_refl].
  Qed.

  (** In whatever order the jobs are retired: the data is in the order of the sequence, and the result
      is made of the whole data. *)
  Lemma loop_result : forall size jobs, 0 < size -> save_at size = true ->
    (forall done, exists r, make_result (partial size done) = Ok r) ->
    Permutation jobs (map (fun i => (i, f i)) (seq 0 size)) ->
    exists r, run_loop save_at make_result size jobs = Ok (LoopState (map (fun i => Some (f i)) (seq 0 size)) size (Some r)) /\
      make_result (map (fun i => Some (f i)) (seq 0 size)) = Ok r.
  Proof.
    intros size jobs HS SA HM P. unfold run_loop.
    assert (LEN : length jobs = size) by (apply Permutation_length in P; now rewrite P, map_length, seq_length).
    assert (IN : forall j, In j jobs -> fst j < size /\ snd j = f (fst j)).
    { intros j Hj. apply (Permutation_in _ P) in Hj. apply in_map_iff in Hj. destruct Hj as [i [<- Hi]]. apply in_seq in Hi. cbn. split; [lia|reflexivity]. }
    destruct (loop_from size HM jobs [] None IN) as [r [E [S _]]].
    assert (P0 : partial size [] = repeat None size).
    { unfold partial. clear. generalize 0. induction size as [|n IH]; intro s; cbn; [reflexivity|]. f_equal. apply IH. }
    rewrite <- P0. cbn [length] in E. rewrite E. rewrite Nat.add_0_r, LEN, app_nil_r in *.
    assert (ALL : forall i, i < size -> In i (rev (map fst jobs))).
    { intros i Hi. rewrite <- in_rev. apply in_map_iff. exists (i, f i). split; [reflexivity|].
      apply (Permutation_in _ (Permutation_sym P)). apply in_map_iff. exists i. split; [reflexivity|]. apply in_seq. lia. }
    rewrite (partial_perm size _ ALL) in *. destruct S as [q [-> Q]]; [destruct jobs; [cbn in LEN; lia|discriminate]|exact SA|].
    exists q. auto.
  Qed.
End Loop.

(** ** The save points *)
Lemma save_set_total : forall every total l, save_set every total = Ok l -> In total l.
Proof. intros every total l. unfold save_set. destruct (Qle_bool every 0); [discriminate|]. intro E. injection E as <-. now left. Qed.

(** ** The results *)
Lemma rows_ok : forall D (zero : D) ne data, data <> [] -> (forall r, In (Some r) data -> length r = ne) ->
  rows zero ne data = Ok (map (fun v => match v with Some r => r | None => repeat zero ne end) data).
Proof.
  intros D zero ne data HN HL. unfold rows. set (g := fun v : option (list D) => match v with Some r => r | None => repeat zero ne end).
  assert (G : forall v, In v data -> length (g v) = ne).
  { intros [r|] Hv; unfold g; [now apply HL|apply repeat_length]. }
  destruct data as [|v data]; [congruence|]. cbn [map].
  replace (forallb (fun r' => length r' =? length (g v)) (map g data)) with true; [reflexivity|].
  symmetry. apply forallb_forall. intros r Hr. apply in_map_iff in Hr. destruct Hr as [w [<- Hw]].
  apply Nat.eqb_eq. rewrite !G; auto; [now left|now right].
Qed.
Lemma concat_len : forall D (l : list (list D)) n, (forall r, In r l -> length r = n) -> length (concat l) = length l * n.
Proof. induction l as [|r l IH]; intros n H; cbn; [reflexivity|]. rewrite app_length, (H r) by (now left). rewrite (IH n); [lia|]. intros. apply H. now right. Qed.
Lemma flat_app : forall shape idx ne e, length idx = length shape -> flat_index (shape ++ [ne]) (idx ++ [e]) = flat_index shape idx * ne + e.
Proof.
  induction shape as [|d shape IH]; intros [|i idx] ne e L; try discriminate L; cbn [app flat_index fold_right]; [lia|].
  rewrite IH by now injection L. replace (fold_right Nat.mul 1 (shape ++ [ne])) with (fold_right Nat.mul 1 shape * ne); [lia|].
  clear. induction shape as [|d shape IH]; cbn; [lia|]. rewrite <- IH. lia.
Qed.
Lemma shape_app : forall shape ne, fold_right Nat.mul 1 (shape ++ [ne]) = fold_right Nat.mul 1 shape * ne.
Proof. induction shape as [|d shape IH]; intro ne; cbn; [lia|]. rewrite IH. lia. Qed.

(** The whole n-dimensional sweep.  [f args]: what the job with these arguments computes, one number
    per energy.  The jobs are retired in any order. *)
Theorem C82 : forall (V D : Type) (zero : D) (vars : list (list V)) (f : list V -> list D) (ne : nat) (every : Q)
    (sequence : list (list V)) (saves : list nat) (jobs : list (nat * list D)),
  make_factory vars = Ok sequence -> save_set every (length sequence) = Ok saves ->
  (forall args, In args sequence -> length (f args) = ne) ->
  Permutation jobs (combine (seq 0 (length sequence)) (map f sequence)) ->
  exists s flat,
    run_loop (fun n => existsb (Nat.eqb n) saves) (ndsweep_result zero (map (@length V) vars) ne) (length sequence) jobs = Ok s /\
    ls_result s = Some flat /\ length flat = length sequence * ne /\
    forall idx args e, picked vars idx args -> e < ne ->
      nd_at (map (@length V) vars ++ [ne]) flat (idx ++ [e]) = nth_error (f args) e.
Proof.
  intros V D zero vars f ne every sequence saves jobs HF HS HL HP.
  assert (SQ : sequence = product vars /\ sequence <> []).
  { unfold make_factory in HF. destruct (product vars) eqn:E; [discriminate HF|]. injection HF as <-. split; [reflexivity|discriminate]. }
  destruct SQ as [SQ NE]. set (n := length sequence) in *.
  assert (NP : 0 < n) by (unfold n; destruct sequence; [congruence|cbn; lia]).
  set (g := fun i => match nth_error sequence i with Some a => f a | None => [] end).
  assert (GP : combine (seq 0 n) (map f sequence) = map (fun i => (i, g i)) (seq 0 n)).
  { assert (K : forall l s, (forall k, k < length l -> nth_error sequence (s + k) = nth_error l k) ->
      combine (seq s (length l)) (map f l) = map (fun i => (i, g i)) (seq s (length l))).
    { induction l as [|a l IH]; intros s H; cbn; [reflexivity|]. f_equal.
      - f_equal. unfold g. specialize (H 0 ltac:(cbn; lia)). rewrite Nat.add_0_r in H. now rewrite H.
      - apply IH. intros k Hk. specialize (H (S k) ltac:(cbn; lia)). cbn in H. rewrite <- H. f_equal. lia. }
    apply K. intros. reflexivity. }
  assert (GL : forall i, i < n -> length (g i) = ne).
  { intros i Hi. unfold g. destruct (nth_error sequence i) eqn:E; [|apply nth_error_None in E; unfold n in Hi; lia].
    apply HL. eapply nth_error_In; eauto. }
  assert (NS : n = fold_right Nat.mul 1 (map (@length V) vars)) by (unfold n; rewrite SQ; apply prod_pos_len).
  assert (MK : forall data, length data = n -> (forall r, In (Some r) data -> length r = ne) ->
    ndsweep_result zero (map (@length V) vars) ne data = Ok (concat (map (fun v => match v with Some r => r | None => repeat zero ne end) data))).
  { intros data LD HD. unfold ndsweep_result. rewrite rows_ok; [|destruct data; [cbn in LD; lia|discriminate]|exact HD]. cbn [obind].
    rewrite concat_len with (n := ne).
    - rewrite map_length, LD, shape_app, <- NS, Nat.eqb_refl. reflexivity.
    - intros r Hr. apply in_map_iff in Hr. destruct Hr as [[w|] [<- Hw]]; [now apply HD|apply repeat_length]. }
  rewrite GP in HP.
  destruct (loop_result (fun k => existsb (Nat.eqb k) saves) (ndsweep_result zero (map (@length V) vars) ne) g n jobs) as [flat [RL MR]]; auto.
  - apply existsb_exists. exists n. split; [now apply (save_set_total every)|apply Nat.eqb_refl].
  - intros done. eexists. apply MK; [apply length_partial|]. intros r Hr. unfold partial in Hr. apply in_map_iff in Hr.
    destruct Hr as [i [E Hi]]. apply in_seq in Hi. destruct (existsb (Nat.eqb i) done); [|discriminate E]. injection E as <-. apply GL. lia.
  - exists (LoopState (map (fun i => Some (g i)) (seq 0 n)) n (Some flat)), flat.
    split; [exact RL|]. split; [reflexivity|].
    rewrite MK in MR; [|now rewrite map_length, seq_length|].
    2:{ intros r Hr. apply in_map_iff in Hr. destruct Hr as [i [E Hi]]. injection E as <-. apply in_seq in Hi. apply GL. lia. }
    injection MR as <-. rewrite map_map. replace (map _ (seq 0 n)) with (map g (seq 0 n)) by (apply map_ext; reflexivity).
    assert (LR : forall r, In r (map g (seq 0 n)) -> length r = ne).
    { intros r Hr. apply in_map_iff in Hr. destruct Hr as [i [<- Hi]]. apply in_seq in Hi. apply GL. lia. }
    split; [rewrite concat_len with (n := ne); [now rewrite map_length, seq_length|exact LR]|].
    intros idx args e PK He. unfold nd_at. pose proof PK as PK'. destruct PK' as [_ LI].
    rewrite flat_app by (rewrite map_length; exact LI).
    pose proof (C82_jobs V vars idx args PK) as J. rewrite <- SQ in J.
    set (k := flat_index (map (@length V) vars) idx) in *.
    assert (KN : k < n) by (apply nth_map_id in J; exact J).
    assert (GK : g k = f args) by (unfold g; now rewrite J).
    destruct (nth_error (f args) e) as [x|] eqn:EX.
    +
      rewrite <- (map_id (map g (seq 0 n))), <- flat_map_concat_map. apply nth_blocks with (g k).
      * exact LR.
      * rewrite nth_error_map, nth_error_nth' with (d := 0) by (rewrite seq_length; exact KN). rewrite seq_nth by exact KN. reflexivity.
      * rewrite GK. exact EX.
    + apply nth_error_None in EX. exfalso. pose proof (GL k KN) as X. rewrite GK in X. lia.
Qed.

(** With worker threads: whatever the schedule of the producer, the workers and the reporter (C22),
    the array is the same. *)
Theorem C82_threads : forall (D : Type) (zero : D) (V : Type) (vars : list (list V)) (produce : nat -> list D)
    (compute : list D -> list D) (f : list V -> list D) ne every sequence saves n queue_size s, 1 <= n ->
  make_factory vars = Ok sequence -> save_set every (length sequence) = Ok saves ->
  (forall args, In args sequence -> length (f args) = ne) ->
  (forall i args, nth_error sequence i = Some args -> compute (produce i) = f args) ->
  reachable (floop produce compute (length sequence) n) (fstart n queue_size) s -> for_returned n s ->
  exists r flat,
    run_loop (fun n => existsb (Nat.eqb n) saves) (ndsweep_result zero (map (@length V) vars) ne) (length sequence) (retired_jobs s) = Ok r /\
    ls_result r = Some flat /\ length flat = length sequence * ne /\
    forall idx args e, picked vars idx args -> e < ne ->
      nd_at (map (@length V) vars ++ [ne]) flat (idx ++ [e]) = nth_error (f args) e.
Proof.
  intros D zero V vars produce compute f ne every sequence saves n qs s Hn HF HS HL HC HR HT.
  apply (C82 V D zero vars f ne every sequence saves); auto.
  destruct (C22_results _ _ _ _ _ _ Hn s HR HT) as [_ [_ P]]. rewrite P. unfold sequential.
  assert (K : forall l st, (forall k, k < length l -> nth_error sequence (st + k) = nth_error l k) ->
      map (fun i => (i, compute (produce i))) (seq st (length l)) = combine (seq st (length l)) (map f l)).
  { induction l as [|a l IH]; intros st H; cbn; [reflexivity|]. f_equal.
    - f_equal. apply HC. specialize (H 0 ltac:(cbn; lia)). rewrite Nat.add_0_r in H. now rewrite H.
    - apply IH. intros k Hk. specialize (H (S k) ltac:(cbn; lia)). cbn in H. rewrite <- H. f_equal. lia. }
  rewrite (K sequence 0); [apply Permutation_refl|]. intros. reflexivity.
Qed.

(** A result that is saved on the way: the rows of the retired jobs are there, the others are zeros. *)
Theorem C82_saved_rows : forall (D : Type) (zero : D) (f : nat -> list D) ne size done, 0 < size ->
  (forall i, i < size -> length (f i) = ne) ->
  exists rs, rows zero ne (partial f size done) = Ok rs /\
    (forall i, i < size -> In i done -> nth_error rs i = Some (f i)) /\
    (forall i, i < size -> ~ In i done -> nth_error rs i = Some (repeat zero ne)).
Proof.
  intros D zero f ne size done HS HL. eexists. split.
  - apply rows_ok.
    + intro E. pose proof (length_partial f size done) as L. rewrite E in L. cbn in L. lia.
    + intros r Hr. unfold partial in Hr. apply in_map_iff in Hr. destruct Hr as [i [E Hi]]. apply in_seq in Hi.
      destruct (existsb (Nat.eqb i) done); [|discriminate E]. injection E as <-. apply HL. lia.
  - unfold partial. split; intros i Hi HD; rewrite !nth_error_map, nth_error_nth' with (d := 0) by (rewrite seq_length; exact Hi);
      rewrite seq_nth by exact Hi; cbn [option_map Nat.add].
    + replace (existsb (Nat.eqb i) done) with true; [reflexivity|]. symmetry. apply existsb_exists. exists i. split; [exact HD|apply Nat.eqb_refl].
    + destruct (existsb (Nat.eqb i) done) eqn:E; [|reflexivity]. apply existsb_exists in E. destruct E as [k [K1 K2]].
      apply Nat.eqb_eq in K2. subst k. contradiction.
Qed.

(** A variable without values: no sweep. *)
Theorem C82_empty_variable : forall V (vars : list (list V)), In [] vars -> make_factory vars = Throw.
Proof.
  intros V vars H. unfold make_factory. replace (product vars) with (@nil (list V)); [reflexivity|].
  symmetry. apply length_zero_iff_nil. rewrite prod_pos_len. induction vars as [|v vars IH]; [destruct H|].
  destruct H as [->|H]; cbn; [reflexivity|]. rewrite IH by exact H. lia.
Qed.

(** ** Arguments of the jobs *)
Section Binding.
  Context {V : Type}.
  Implicit Types params : list (names * V).
  Definition swept (kwargs : list (names * list V)) (p : names * V) : Prop := exists v, find_arg kwargs (fst p) = Some v.
  Definition fixed (kwargs : list (names * list V)) (p : names * V) : Prop := find_arg kwargs (fst p) = None.

  Lemma fixtures_fixed : forall kwargs b, Forall (fixed kwargs) b -> fixtures b kwargs = b.
  Proof. intros kwargs b H. unfold fixtures. induction H as [|p b HP HB IH]; cbn; [reflexivity|]. red in HP. rewrite HP. now rewrite IH. Qed.
  Lemma fixtures_swept : forall kwargs a, Forall (swept kwargs) a -> fixtures a kwargs = [].
  Proof. intros kwargs a H. unfold fixtures. induction H as [|p a [v HP] HB IH]; cbn; [reflexivity|]. rewrite HP. exact IH. Qed.
  Lemma fixtures_app : forall kwargs (a b : list (names * V)), fixtures (a ++ b) kwargs = fixtures a kwargs ++ fixtures b kwargs.
  Proof. intros. unfold fixtures. apply filter_app. Qed.
  Lemma find_none : forall {X} (l : list (names * X)) n, ~ In n (map fst l) -> find_arg l n = None.
  Proof.
    intros X l n. unfold find_arg. induction l as [|[m x] l IH]; intro H; cbn; [reflexivity|].
    destruct (Nat.eqb_spec m n); [exfalso; apply H; now left|]. apply IH. intro. apply H. now right.
  Qed.
  Lemma find_first : forall {X} (l : list (names * X)) n x, NoDup (map fst l) -> In (n, x) l -> find_arg l n = Some x.
  Proof.
    intros X l n x. unfold find_arg. induction l as [|[m y] l IH]; intros ND H; cbn; [destruct H|].
    cbn in ND. inversion ND as [|? ? NI ND']; subst. destruct H as [H|H].
    - injection H as -> ->. now rewrite Nat.eqb_refl.
    - destruct (Nat.eqb_spec m n) as [->|_]; [exfalso; apply NI; apply in_map_iff; exists (n, x); auto|]. now apply IH.
  Qed.
  Lemma bind_fixed : forall (b b' : list (names * V)), NoDup (map fst b') -> (forall p, In p b -> In p b') -> bind b [] b' = Ok b.
  Proof.
    induction b as [|[n x] b IH]; intros b' ND H; cbn; [reflexivity|].
    rewrite (find_first b' n x ND) by (apply H; now left). cbn. rewrite IH; auto. intros. apply H. now right.
  Qed.

  (** The swept parameters first in the signature: each job gets its values, the others their defaults. *)
  Theorem C82_binding : forall (a b : list (names * V)) kwargs args, NoDup (map fst (a ++ b)) ->
    Forall (swept kwargs) a -> Forall (fixed kwargs) b -> length args = length a ->
    bind (a ++ b) args (fixtures (a ++ b) kwargs) = Ok (combine (map fst a) args ++ b).
  Proof.
    intros a b kwargs args ND HA HB HL. rewrite fixtures_app, (fixtures_swept _ _ HA), (fixtures_fixed _ _ HB). cbn [app].
    clear HA HB. revert args HL. induction a as [|[n x] a IH]; intros [|y args] HL; try discriminate HL; cbn [app map combine] in *.
    - apply bind_fixed; auto.
    - cbn [bind fst]. inversion ND as [|? ? NI ND']; subst. rewrite find_none by (intro; apply NI; rewrite map_app; apply in_or_app; now right).
      rewrite IH; auto.
  Qed.

  Lemma variables_len : forall (params : list (names * V)) kwargs, length (variables params kwargs) + length (fixtures params kwargs) = length params.
  Proof.
    intros. unfold variables, fixtures. induction params as [|p params IH]; cbn; [reflexivity|].
    destruct (find_arg kwargs (fst p)); cbn; lia.
  Qed.
  Lemma bind_throw : forall params (fx : list (names * V)) args a (p : names * V) b,
    params = a ++ p :: b -> (exists d, find_arg fx (fst p) = Some d) -> length a < length args -> bind params args fx = Throw.
  Proof.
    intros params fx args a p b -> HD. revert args. induction a as [|q a IH]; intros [|y args] HL; cbn in HL; try lia; cbn [app bind].
    - destruct HD as [d ->]. reflexivity.
    - destruct (find_arg fx (fst q)); [reflexivity|]. rewrite IH by lia. reflexivity.
  Qed.

  (** A parameter with its default before a swept one: every job fails. *)
  Theorem C82_binding_throws : forall (a b c : list (names * V)) p q kwargs args, NoDup (map fst (a ++ p :: b ++ q :: c)) ->
    Forall (swept kwargs) a -> fixed kwargs p -> swept kwargs q ->
    length args = length (variables (a ++ p :: b ++ q :: c) kwargs) ->
    bind (a ++ p :: b ++ q :: c) args (fixtures (a ++ p :: b ++ q :: c) kwargs) = Throw.
  Proof.
    intros a b c p q kwargs args ND HA HP HQ HL. eapply bind_throw with (a := a); [reflexivity| |].
    - exists (snd p). apply find_first.
      + clear - ND. unfold fixtures. set (l := a ++ p :: b ++ q :: c) in *. clearbody l. induction l as [|x l IH]; cbn; [constructor|].
        inversion ND as [|? ? NI ND']; subst. destruct (find_arg kwargs (fst x)); cbn; [auto|]. constructor; [|auto].
        intro H. apply NI. apply in_map_iff in H. destruct H as [y [E Hy]]. apply filter_In in Hy. apply in_map_iff. exists y. tauto.
      + unfold fixtures. apply filter_In. split; [destruct p; apply in_or_app; right; now left|]. red in HP. cbn. now rewrite HP.
    - rewrite HL. assert (V1 : forall x y, variables (x ++ y) kwargs = variables x kwargs ++ variables y kwargs) by (intros; apply flat_map_app).
      rewrite V1. change (p :: b ++ q :: c) with ([p] ++ b ++ [q] ++ c). rewrite !V1, !app_length.
      pose proof (variables_len a kwargs) as LA. rewrite (fixtures_swept _ _ HA) in LA. cbn [length] in LA.
      assert (LQ : length (variables [q] kwargs) = 1) by (destruct HQ as [v HQ]; unfold variables; cbn; now rewrite HQ). lia.
  Qed.

  (** A name that is no parameter of the factory is ignored without a word. *)
  Theorem C82_unknown_ignored : forall params kwargs n v, ~ In n (map fst params) ->
    variables params ((n, v) :: kwargs) = variables params kwargs /\ fixtures params ((n, v) :: kwargs) = fixtures params kwargs.
  Proof.
    intros params kwargs n v H. unfold variables, fixtures, find_arg.
    induction params as [|p params IH]; cbn in *; [auto|].
    destruct (Nat.eqb_spec n (fst p)) as [->|N]; [exfalso; apply H; now left|]. cbn.
    destruct IH as [E1 E2]; [intro; apply H; now right|]. rewrite E1, E2. auto.
  Qed.
End Binding.

(** The claims as a reader of the documentation would have them. *)
Definition C82_claim_arguments : Prop := forall V (params : list (names * V)) kwargs args, NoDup (map fst params) ->
  length args = length (variables params kwargs) -> exists env, bind params args (fixtures params kwargs) = Ok env.
Theorem C82_refuted_arguments : ~ C82_claim_arguments.
Proof.
  intro C. destruct (C nat [(0, 10); (1, 20)] [(1, [5; 6])] [5]) as [env E]; [|reflexivity|].
  - repeat constructor; cbn; intuition lia.
  - vm_compute in E. discriminate E.
Qed.
(** [sweep]: row [i] of the data belongs to [x[i]]. *)
Definition C82_claim_sweep : Prop := forall V D (zero : D) (vars : list (list V)) ne data x rs,
  length data = length (product vars) -> sweep_result zero vars ne data = Ok (x, rs) -> length rs = length x.
Theorem C82_refuted_sweep : ~ C82_claim_sweep.
Proof.
  intro C. specialize (C nat nat 0 [[1; 2]; [3; 4]] 1 [None; None; None; None] [1; 2] [[0]; [0]; [0]; [0]] eq_refl eq_refl). discriminate C.
Qed.
Theorem C82_sweep : forall V D (zero : D) (v : list V) ne (f : V -> list D), v <> [] -> (forall a, In a v -> length (f a) = ne) ->
  sweep_result zero [v] ne (map (fun a => Some (f a)) v) = Ok (v, map f v).
Proof.
  intros V D zero v ne f HN HL. unfold sweep_result. rewrite rows_ok.
  - cbn [omap obind]. rewrite map_map. reflexivity.
  - destruct v; [congruence|discriminate].
  - intros r Hr. apply in_map_iff in Hr. destruct Hr as [a [E Ha]]. injection E as <-. now apply HL.
Qed.
(** Two numbers per energy, as for a site with two orbitals: [Sweep] takes rows of twice the length of its
    energies, [NDSweep] raises. *)
Theorem C82_columns : forall D (zero : D) shape ne (data : list (list D)), data <> [] -> 0 < ne -> length data = fold_right Nat.mul 1 shape ->
  (forall r, In r data -> length r = 2 * ne) ->
  ndsweep_result zero shape ne (map Some data) = Throw /\
  forall V (v : list V), sweep_result zero [v] ne (map Some data) = Ok (v, data).
Proof.
  intros D zero shape ne data HN HP HS HL.
  assert (R : rows zero ne (map Some data) = Ok data).
  { unfold rows. rewrite map_map. rewrite map_id. destruct data as [|r t]; [congruence|].
    replace (forallb _ t) with true; [reflexivity|]. symmetry. apply forallb_forall. intros q Hq. apply Nat.eqb_eq.
    rewrite !HL; auto; [now left|now right]. }
  split; [|intros; unfold sweep_result; rewrite R; reflexivity].
  unfold ndsweep_result. rewrite R. cbn [obind]. rewrite concat_len with (n := 2 * ne) by exact HL. rewrite shape_app, <- HS.
  destruct (Nat.eqb_spec (length data * (2 * ne)) (length data * ne)); [|reflexivity]. destruct data; [congruence|]. cbn [length] in e. nia.
Qed.

(** ** Examples *)
(** parallel.py, docs: [a = [1, 2]], [b = [10, 20, 30]], two energies, jobs retired out of order *)
Example C82_example :
  let vars := [[1; 2]; [10; 20; 30]] in
  let f := fun args => match args with [a; b] => [a + b; a * b] | _ => [] end in
  match make_factory vars, save_set 10 6 with
  | Ok sequence, Ok saves =>
      match run_loop (fun n => existsb (Nat.eqb n) saves) (ndsweep_result 0 [2; 3] 2) 6
        (map (fun i => (i, f (nth i sequence []))) [3; 0; 5; 1; 2; 4]) with
      | Ok s => ls_result s = Some [11; 10; 21; 20; 31; 30; 12; 20; 22; 40; 32; 60] /\
          nd_at [2; 3; 2] [11; 10; 21; 20; 31; 30; 12; 20; 22; 40; 32; 60] [1; 2; 0] = Some 32
      | _ => False end
  | _, _ => False end.
Proof. vm_compute. auto. Qed.
(** def factory(a, b, c=7) with [a], [b] swept; with [b], [c] swept it fails *)
Example C82_binding_example :
  bind [(0, 99); (1, 99); (2, 7)] [1; 10] (fixtures [(0, 99); (1, 99); (2, 7)] [(1, [10]); (0, [1])]) = Ok [(0, 1); (1, 10); (2, 7)] /\
  bind [(0, 99); (1, 99); (2, 7)] [1; 10] (fixtures [(0, 99); (1, 99); (2, 7)] [(1, [10]); (2, [1])]) = Throw.
Proof. vm_compute. auto. Qed.
