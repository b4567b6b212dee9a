(* Whatever the schedule, the gathered moments are the mean (accumulator) or the columns
   (concatenator) of exactly the requested start vectors. *)
From Verif Require Import Base Scalar KpmBatch.
From Coq Require Import Ring.

Section BatchProofs.
  Variable R : scalar.
  Add Ring Rring : (k_ring R).
  Local Open Scope k_scope.
  Variable bs M v : nat.
  Variable inv_v : R.
  Variable mom : nat -> list R.
  Hypothesis Hbs : 0 < bs.
  Hypothesis Hv : 0 < v.
  Hypothesis Hmom : forall k, length (mom k) = M.

  Local Notation vectors := (vectors bs).
  Definition size_of (p : task * status) : nat := vectors (fst p).
  Definition nsum {A} (f : A -> nat) (l : list A) : nat := sum_list (map f l).

  Lemma nsum_cons : forall {A} (f : A -> nat) a l, nsum f (a :: l) = (f a + nsum f l)%nat.
  Proof. intros. unfold nsum. cbn [map]. apply sum_list_cons. Qed.
  Lemma nsum_upd : forall {A} (f : A -> nat) l i a b, nth_error l i = Some a -> (nsum f (upd l i b) + f a = nsum f l + f b)%nat.
  Proof.
    intros A f. induction l as [|x l IH]; intros i a b H; destruct i; cbn in H; try discriminate; cbn [upd]; rewrite !nsum_cons.
    - injection H as ->. lia.
    - specialize (IH _ _ b H). lia.
  Qed.
  Lemma ksum_upd : forall {A} (f : A -> R) l i a b, nth_error l i = Some a -> ksum f (upd l i b) + f a = ksum f l + f b.
  Proof.
    intros A f. induction l as [|x l IH]; intros i a b H; destruct i; cbn in H; try discriminate; cbn [upd]; rewrite !ksum_cons.
    - injection H as ->. ring.
    - specialize (IH _ _ b H). transitivity (f x + (ksum f (upd l i b) + f a)); [ring|]. rewrite IH. ring.
  Qed.
  Lemma map_upd : forall {A B} (f : A -> B) l i a, map f (upd l i a) = upd (map f l) i (f a).
  Proof. intros A B f. induction l as [|x l IH]; intros [|i] a; cbn; auto. rewrite IH. reflexivity. Qed.
  Lemma upd_same : forall {A} (l : list A) i a, nth_error l i = Some a -> upd l i a = l.
  Proof. intros A. induction l as [|x l IH]; intros [|i] a H; cbn in *; try discriminate; [injection H as ->; auto|rewrite IH; auto]. Qed.
  Lemma in_upd : forall {A} (l : list A) i a x, In x (upd l i a) -> x = a \/ In x l.
  Proof.
    intros A. induction l as [|y l IH]; intros [|i] a x H; cbn in *; auto; destruct H as [H|H]; auto.
    destruct (IH _ _ _ H); auto.
  Qed.
  Lemma upd_other : forall {A} (l : list A) i a b x, nth_error l i = Some a -> In x l -> x <> a -> In x (upd l i b).
  Proof.
    intros A. induction l as [|y l IH]; intros [|i] a b x H Hx Hn; cbn in *; try discriminate.
    - injection H as ->. destruct Hx as [-> |Hx]; [congruence|auto].
    - destruct Hx as [-> |Hx]; eauto.
  Qed.
  Lemma upd_in : forall {A} (l : list A) i a b, nth_error l i = Some a -> In b (upd l i b).
  Proof. intros A. induction l as [|y l IH]; intros [|i] a b H; cbn in *; try discriminate; eauto. Qed.

  (** ** The split into batches and singles *)
  Variable threads : nat.
  Local Notation tasks := (make_tasks bs v threads).
  Local Notation T := (nsum vectors tasks).

  Lemma nsum_app : forall {A} (f : A -> nat) a b, nsum f (a ++ b) = (nsum f a + nsum f b)%nat.
  Proof. intros. unfold nsum. rewrite map_app. apply sum_list_app. Qed.
  Lemma nsum_repeat : forall {A} (f : A -> nat) a n, nsum f (repeat a n) = (n * f a)%nat.
  Proof. intros A f a n. induction n; [reflexivity|]. cbn [repeat]. rewrite nsum_cons, IHn. lia. Qed.

  Lemma tasks_ok : v <= T /\ (forall t, In t tasks -> 0 < vectors t /\ (T - vectors t < v)%nat) /\ 0 < length tasks.
  Proof.
    pose proof (Nat.div_mod v bs ltac:(lia)) as Hd. pose proof (Nat.mod_upper_bound v bs ltac:(lia)) as Hb.
    unfold make_tasks. set (q := (v / bs)%nat) in *. set (r := (v mod bs)%nat) in *.
    destruct (Nat.ltb_spec (threads * bs / 2) r) as [H|H].
    - rewrite nsum_repeat. cbn [KpmBatch.vectors]. repeat split; try (rewrite repeat_length; lia); try lia.
      + apply repeat_spec in H0. subst t. auto.
      + apply repeat_spec in H0. subst t. cbn [KpmBatch.vectors]. lia.
    - rewrite nsum_app, !nsum_repeat. cbn [KpmBatch.vectors]. split; [lia|]. split.
      + intros t Ht. apply in_app_iff in Ht. destruct Ht as [Ht|Ht]; apply repeat_spec in Ht; subst t; cbn [KpmBatch.vectors]; lia.
      + rewrite app_length, !repeat_length. destruct q; lia.
  Qed.

  (** ** Invariant of the schedule *)
  Definition idx_of (p : task * status) : option nat := match snd p with Waiting => None | Taken i | Done i => Some i end.
  Definition taken_size (p : task * status) : nat := match idx_of p with Some _ => size_of p | None => 0 end.
  Definition contrib (g : nat -> R) (p : task * status) : R := match idx_of p with Some i => ksum g (seq i (size_of p)) | None => k0 end.

  Record inv {C} (s : state C) : Prop := {
    i_tasks : map fst (st_tasks s) = tasks;
    i_count : nsum taken_size (st_tasks s) = st_count s;
    i_cover : forall k, k < st_count s -> exists p i, In p (st_tasks s) /\ idx_of p = Some i /\ i <= k < i + size_of p;
    i_sum : forall g, ksum (contrib g) (st_tasks s) = ksum g (seq 0 (st_count s));
    i_range : forall p i, In p (st_tasks s) -> idx_of p = Some i -> (i + size_of p <= st_count s)%nat
  }.

  Lemma inv_start : forall C (c : C), inv (start bs v C threads c).
  Proof.
    intros C c. constructor; cbn [st_tasks st_count start].
    - rewrite map_map. cbn. apply map_id.
    - clear. induction tasks as [|t l IH]; [reflexivity|]. cbn [map]. rewrite nsum_cons, IH. reflexivity.
    - intros; lia.
    - intros g. cbn. rewrite ksum_map. apply ksum_0. auto.
    - intros p i Hp Hi. apply in_map_iff in Hp. destruct Hp as (t & <- & _). discriminate.
  Qed.

  Lemma inv_take : forall C (s : state C) i t, inv s -> nth_error (st_tasks s) i = Some (t, Waiting) ->
    inv (State (upd (st_tasks s) i (t, Taken (st_count s))) (st_count s + vectors t)%nat (st_coll s)).
  Proof.
    intros C s i t [I1 I2 I3 I4 I5] Hi. constructor; cbn [st_tasks st_count].
    - rewrite map_upd. cbn [fst]. rewrite upd_same; auto. rewrite nth_error_map, Hi. reflexivity.
    - pose proof (nsum_upd taken_size _ _ _ (t, Taken (st_count s)) Hi) as E. cbn in E. unfold size_of in E. cbn in E. lia.
    - intros k Hk. destruct (Nat.lt_ge_cases k (st_count s)) as [H|H].
      + destruct (I3 k H) as (p & j & Hp & Hj & Hr). exists p, j. split; auto. eapply upd_other; eauto. intros ->. discriminate.
      + exists (t, Taken (st_count s)), (st_count s). split; [eapply upd_in; eauto|]. split; [auto|]. unfold size_of; cbn; lia.
    - intros g. pose proof (ksum_upd (contrib g) _ _ _ (t, Taken (st_count s)) Hi) as E. cbn in E. unfold size_of in E. cbn in E.
      rewrite I4 in E. rewrite seq_app, ksum_app. cbn [plus]. rewrite <- E. unfold contrib. cbn. ring.
    - intros p j Hp Hj. apply in_upd in Hp. destruct Hp as [-> |Hp].
      + cbn in Hj. injection Hj as <-. unfold size_of. cbn. lia.
      + pose proof (I5 p j Hp Hj). lia.
  Qed.

  Lemma same_idx_sum : forall {A} (f : task * status -> A) l i t idx, nth_error l i = Some (t, Taken idx) ->
    f (t, Taken idx) = f (t, Done idx) -> map f (upd l i (t, Done idx)) = map f l.
  Proof. intros A f l i t idx H E. rewrite map_upd, <- E. apply upd_same. rewrite nth_error_map, H. reflexivity. Qed.

  Lemma inv_deliver : forall C (s : state C) i t idx (c : C), inv s -> nth_error (st_tasks s) i = Some (t, Taken idx) ->
    inv (State (upd (st_tasks s) i (t, Done idx)) (st_count s) c).
  Proof.
    intros C s i t idx c [I1 I2 I3 I4 I5] Hi. constructor; cbn [st_tasks st_count].
    - rewrite same_idx_sum; auto.
    - unfold nsum. rewrite same_idx_sum; auto.
    - intros k Hk. destruct (I3 k Hk) as (p & j & Hp & Hj & Hr).
      assert (D : {p = (t, Taken idx)} + {p <> (t, Taken idx)}) by (repeat decide equality).
      destruct D as [-> |Hn].
      + exists (t, Done idx), j. split; [eapply upd_in; eauto|]. split; auto.
      + exists p, j. split; auto. eapply upd_other; eauto.
    - intros g. pose proof (ksum_upd (contrib g) _ _ _ (t, Done idx) Hi) as E. rewrite <- I4.
      assert (Q : contrib g (t, Taken idx) = contrib g (t, Done idx)) by reflexivity. rewrite Q in E.
      transitivity (ksum (contrib g) (upd (st_tasks s) i (t, Done idx)) + contrib g (t, Done idx) - contrib g (t, Done idx)); [ring|].
      rewrite E. ring.
    - intros p j Hp Hj. apply in_upd in Hp. destruct Hp as [-> |Hp]; auto. cbn in Hj. injection Hj as <-.
      apply (I5 (t, Taken idx) idx); auto. eapply nth_error_In; eauto.
  Qed.

  Lemma total_split : forall C (s : state C), inv s -> nsum size_of (st_tasks s) = T.
  Proof.
    intros C s I. unfold nsum. rewrite <- (i_tasks _ I), map_map. reflexivity.
  Qed.
  Lemma nsum_le : forall {A} (f g : A -> nat) l, (forall a, In a l -> f a <= g a) -> nsum f l <= nsum g l.
  Proof.
    intros A f g l H. induction l as [|a l IH]; [auto|]. rewrite !nsum_cons. pose proof (H a (or_introl eq_refl)).
    pose proof (IH (fun x Hx => H x (or_intror Hx))). lia.
  Qed.
  Lemma nsum_lt : forall (f g : task * status -> nat) l p, (forall a, In a l -> f a <= g a) -> In p l -> f p = 0%nat ->
    (nsum f l + g p <= nsum g l)%nat.
  Proof.
    intros f g l p H Hp E. induction l as [|a l IH]; [destruct Hp|]. rewrite !nsum_cons. destruct Hp as [-> |Hp].
    - pose proof (nsum_le f g l (fun x Hx => H x (or_intror Hx))). lia.
    - pose proof (H a (or_introl eq_refl)). pose proof (IH (fun x Hx => H x (or_intror Hx)) Hp). lia.
  Qed.
  Lemma taken_le : forall a, taken_size a <= size_of a.
  Proof. intros a. unfold taken_size. destruct (idx_of a); lia. Qed.

  Lemma task_in : forall C (s : state C) p, inv s -> In p (st_tasks s) -> 0 < size_of p /\ (T - size_of p < v)%nat /\ v <= T.
  Proof.
    intros C s p I Hp. destruct tasks_ok as (H1 & H2 & _).
    assert (Ht : In (fst p) tasks) by (rewrite <- (i_tasks _ I); apply in_map; auto).
    destruct (H2 _ Ht). repeat split; auto.
  Qed.
  (** A task that holds start vectors was given indices below the requested number. *)
  Lemma idx_small : forall C (s : state C) p i, inv s -> In p (st_tasks s) -> idx_of p = Some i -> i < v.
  Proof.
    intros C s p i I Hp Hi. pose proof (i_range _ I p i Hp Hi). destruct (task_in _ s p I Hp) as (Hs & Ht & _).
    pose proof (nsum_le taken_size size_of (st_tasks s) (fun a _ => taken_le a)).
    rewrite (i_count _ I), (total_split _ s I) in *. lia.
  Qed.

  Definition done_size (p : task * status) : nat := match snd p with Done _ => size_of p | _ => 0 end.
  Lemma done_le : forall a, done_size a <= size_of a.
  Proof. intros [t st]. unfold done_size. cbn. destruct st; lia. Qed.
  Lemma done_all : forall l, forallb is_done l = true -> nsum done_size l = nsum size_of l.
  Proof.
    induction l as [|[t st] l IH]; intros H; [reflexivity|]. cbn [forallb] in H. apply andb_prop in H. destruct H as (H1 & H2).
    rewrite !nsum_cons, IH by auto. destruct st; try discriminate. reflexivity.
  Qed.
  Lemma not_all_done : forall l, forallb is_done l = false -> exists p, In p l /\ is_done p = false.
  Proof.
    induction l as [|p l IH]; intros H; [discriminate|]. cbn [forallb] in H. destruct (is_done p) eqn:E.
    - destruct (IH H) as (q & Hq & Eq). exists q. split; [right|]; auto.
    - exists p. split; [left|]; auto.
  Qed.
  (** Before the last delivery fewer than the requested number were counted. *)
  Lemma done_small : forall C (s : state C), inv s -> forallb is_done (st_tasks s) = false -> nsum done_size (st_tasks s) < v.
  Proof.
    intros C s I H. destruct (not_all_done _ H) as (p & Hp & Ep). destruct (task_in _ s p I Hp) as (Hs & Ht & _).
    pose proof (nsum_lt done_size size_of (st_tasks s) p (fun a _ => done_le a) Hp) as L.
    rewrite (total_split _ s I) in L. assert (done_size p = 0) by (unfold done_size, is_done in *; destruct (snd p); auto; discriminate). lia.
  Qed.

  (** ** Accumulator *)
  Definition val (n k : nat) : R := nth n (mom k) k0.
  Definition below (n k : nat) : R := if k <? v then val n k else k0.
  Definition done_contrib (n : nat) (p : task * status) : R := match snd p with Done i => ksum (below n) (seq i (size_of p)) | _ => k0 end.

  Lemma vadd_nth : forall (a c : list R) n, length a = length c -> nth n (vadd R a c) k0 = nth n a k0 + nth n c k0.
  Proof.
    unfold vadd. induction a as [|x a IH]; intros [|y c] n H; cbn in H; try discriminate; [destruct n; cbn; ring|].
    destruct n; cbn; auto.
  Qed.
  Lemma vadd_length : forall a c : list R, length a = length c -> length (vadd R a c) = length a.
  Proof. intros a c H. unfold vadd. rewrite map_length, combine_length. lia. Qed.
  Lemma nth_repeat0 : forall m n, nth n (repeat (k0 : R) m) k0 = k0.
  Proof. induction m; intros [|n]; cbn; auto. Qed.

  Lemma add_array_ok : forall r a : list R, length r = M -> length a = M -> add_array R r a = Ok (vadd R r a).
  Proof. intros r a H1 H2. unfold add_array. rewrite H1, H2, Nat.eqb_refl. reflexivity. Qed.

  Lemma sum_cols : forall ks r, length r = M ->
    exists r', ofold (add_array R) (map mom ks) r = Ok r' /\ length r' = M /\ forall n, nth n r' k0 = nth n r k0 + ksum (val n) ks.
  Proof.
    induction ks as [|k ks IH]; intros r Hr.
    - exists r. split; [reflexivity|]. split; auto. intros n. cbn. ring.
    - cbn [map ofold]. rewrite add_array_ok by auto. cbn [obind].
      destruct (IH (vadd R r (mom k))) as (r' & E & L & V); [rewrite vadd_length; rewrite ?Hmom; auto|].
      exists r'. split; auto. split; auto. intros n. rewrite V, vadd_nth by (rewrite Hmom; auto). rewrite ksum_cons. unfold val at 2. ring.
  Qed.
  Lemma firstn_map_mom : forall n i m, n <= m -> firstn n (map mom (seq i m)) = map mom (seq i n).
  Proof.
    intros n i m H. rewrite firstn_map. f_equal. revert i m H. induction n as [|n IH]; intros i m H; [reflexivity|].
    destruct m; [lia|]. cbn. rewrite IH by lia. reflexivity.
  Qed.
  (** The columns that are used are those with an index below the requested number. *)
  Lemma used_sum : forall n i m k, i < v -> used_cols v i m = Ok k -> k <= m /\ 0 < m -> ksum (val n) (seq i k) = ksum (below n) (seq i m).
  Proof.
    intros n i m k Hi Hk _. unfold used_cols in Hk. destruct (Nat.leb_spec i v); [|lia]. injection Hk as <-.
    destruct (Nat.ltb_spec m (v - i)) as [H1|H1].
    - apply ksum_ext. intros j Hj. apply in_seq in Hj. unfold below. destruct (Nat.ltb_spec j v); [auto|lia].
    - replace m with ((v - i) + (m - (v - i)))%nat by lia. rewrite seq_app, ksum_app.
      rewrite (ksum_0 R _ (seq (i + (v - i)) _)).
      + transitivity (ksum (below n) (seq i (v - i))); [|ring]. apply ksum_ext. intros j Hj. apply in_seq in Hj.
        unfold below. destruct (Nat.ltb_spec j v); [auto|lia].
      + intros j Hj. apply in_seq in Hj. unfold below. destruct (Nat.ltb_spec j v); [lia|auto].
  Qed.

  Lemma accumulate_ok : forall (s : accumulator R) t idx (old : nat -> R), idx < v ->
    (fst s = 0%nat /\ (forall n, old n = k0)) \/ (0 < fst s /\ exists r, snd s = DVec r /\ length r = M /\ forall n, nth n r k0 = old n) ->
    exists r', accumulate R M v inv_v s (task_moments R bs mom t idx) idx = Ok (finish R v inv_v (fst s + vectors t)%nat r')
      /\ length r' = M /\ forall n, nth n r' k0 = old n + ksum (below n) (seq idx (vectors t)).
  Proof.
    intros s t idx old Hi Hs. destruct t; cbn [task_moments accumulate KpmBatch.vectors].
    - rewrite map_length, seq_length.
      assert (G : exists k, used_cols v idx bs = Ok k /\ k <= bs).
      { unfold used_cols. destruct (Nat.leb_spec idx v); [|lia]. eexists. split; [reflexivity|]. destruct (Nat.ltb_spec bs (v - idx)); lia. }
      destruct G as (k & Ek & Hk). rewrite Ek. cbn [obind]. rewrite firstn_map_mom by auto.
      destruct (sum_cols (seq idx k) (repeat k0 M) ltac:(apply repeat_length)) as (sm & Es & Ls & Vs).
      assert (Hsum : forall n, nth n sm k0 = ksum (below n) (seq idx bs)).
      { intros n. rewrite Vs, nth_repeat0, (used_sum n idx bs k Hi Ek) by auto. ring. }
      destruct Hs as [(E0 & Ho)|(Hp & r & Er & Lr & Vr)].
      + rewrite E0. cbn [Nat.eqb get_array obind]. rewrite Es. cbn [obind]. rewrite add_array_ok by (auto; apply repeat_length). cbn [obind].
        eexists. split; [reflexivity|]. split; [rewrite vadd_length; rewrite ?repeat_length; auto|].
        intros n. rewrite vadd_nth by (rewrite repeat_length; auto). rewrite nth_repeat0, Hsum, Ho. reflexivity.
      + destruct (Nat.eqb_spec (fst s) 0); [lia|]. rewrite Er. cbn [get_array obind]. rewrite Es. cbn [obind].
        rewrite add_array_ok by auto. cbn [obind]. eexists. split; [reflexivity|]. split; [rewrite vadd_length; congruence|].
        intros n'. rewrite vadd_nth by congruence. rewrite Hsum, Vr. reflexivity.
    - replace (fst s + 1)%nat with (S (fst s)) by lia.
      assert (Hone : forall n, ksum (below n) (seq idx 1) = nth n (mom idx) k0).
      { intros n. cbn. unfold below, val. destruct (Nat.ltb_spec idx v); [|lia]. ring. }
      destruct Hs as [(E0 & Ho)|(Hp & r & Er & Lr & Vr)].
      + rewrite E0. cbn [Nat.eqb obind]. eexists. split; [reflexivity|]. split; auto. intros n. rewrite Hone, Ho. ring.
      + destruct (Nat.eqb_spec (fst s) 0); [lia|]. rewrite Er. cbn [get_array obind]. rewrite add_array_ok by auto. cbn [obind].
        eexists. split; [reflexivity|]. split; [rewrite vadd_length; rewrite ?Hmom; congruence|].
        intros n'. rewrite vadd_nth by (rewrite Hmom; auto). rewrite Hone, Vr. reflexivity.
  Qed.

  Definition scale : R := if v =? 1 then k1 else inv_v.
  Definition acc_inv (s : state (accumulator R)) : Prop :=
    if forallb is_done (st_tasks s)
    then exists r, snd (st_coll s) = DVec r /\ length r = M /\ forall n, nth n r k0 = scale * ksum (val n) (seq 0 v)
    else fst (st_coll s) = nsum done_size (st_tasks s)
         /\ (0 < fst (st_coll s) -> exists r, snd (st_coll s) = DVec r /\ length r = M
               /\ forall n, nth n r k0 = ksum (done_contrib n) (st_tasks s)).

  Lemma no_done : forall C (s : state C) n, inv s -> nsum done_size (st_tasks s) = 0%nat -> ksum (done_contrib n) (st_tasks s) = k0.
  Proof.
    intros C s n I H. apply ksum_0. intros p Hp. unfold done_contrib. destruct (snd p) eqn:E; auto. exfalso.
    destruct (task_in _ s p I Hp) as (Hs & _).
    assert (G : forall l, In p l -> done_size p <= nsum done_size l).
    { induction l as [|a l IH]; [intros []|]. rewrite nsum_cons. intros [-> |Hl]; [lia|]. pose proof (IH Hl). lia. }
    pose proof (G _ Hp) as L. unfold done_size in L at 1. rewrite E in L. lia.
  Qed.

  Lemma all_done_sum : forall C (s : state C) n, inv s -> forallb is_done (st_tasks s) = true ->
    ksum (done_contrib n) (st_tasks s) = ksum (val n) (seq 0 v).
  Proof.
    intros C s n I H.
    transitivity (ksum (contrib (below n)) (st_tasks s)).
    { apply ksum_ext. intros [t st] Hp. rewrite forallb_forall in H. specialize (H _ Hp). destruct st; try discriminate. reflexivity. }
    rewrite (i_sum _ I).
    assert (E : st_count s = T).
    { rewrite <- (i_count _ I), <- (total_split _ s I). unfold nsum. f_equal. apply map_ext_in. intros [t st] Hp.
      rewrite forallb_forall in H. specialize (H _ Hp). destruct st; try discriminate. reflexivity. }
    rewrite E. destruct tasks_ok as (Hle & _). replace T with (v + (T - v))%nat by lia. rewrite seq_app, ksum_app.
    rewrite (ksum_0 R _ (seq (0 + v) _)).
    - transitivity (ksum (below n) (seq 0 v)); [ring|]. apply ksum_ext. intros k Hk. apply in_seq in Hk. unfold below.
      destruct (Nat.ltb_spec k v); [auto|lia].
    - intros k Hk. apply in_seq in Hk. unfold below. destruct (Nat.ltb_spec k v); [lia|auto].
  Qed.

  Lemma acc_start : forall d, acc_inv (start bs v (accumulator R) threads (0%nat, d)).
  Proof.
    intros d. unfold acc_inv. cbn [st_tasks st_coll start].
    assert (E : forallb is_done (map (fun t => (t, Waiting)) tasks) = false).
    { destruct tasks_ok as (_ & _ & H). destruct tasks as [|t l]; [cbn in H; lia|]. reflexivity. }
    rewrite E. cbn [fst snd]. split; [|lia]. clear. induction tasks as [|t l IH]; [reflexivity|]. cbn [map]. rewrite nsum_cons, <- IH. reflexivity.
  Qed.

  Lemma taken_not_done : forall (l : list (task * status)) i t idx, nth_error l i = Some (t, Taken idx) -> forallb is_done l = false.
  Proof.
    intros l i t idx H. destruct (forallb is_done l) eqn:E; auto. rewrite forallb_forall in E.
    specialize (E _ (nth_error_In _ _ H)). discriminate.
  Qed.

  Lemma acc_deliver : forall s i t idx, inv s -> acc_inv s -> nth_error (st_tasks s) i = Some (t, Taken idx) ->
    exists c, accumulate R M v inv_v (st_coll s) (task_moments R bs mom t idx) idx = Ok c
      /\ acc_inv (State (upd (st_tasks s) i (t, Done idx)) (st_count s) c).
  Proof.
    intros s i t idx I J Hi. unfold acc_inv in J. rewrite (taken_not_done _ _ _ _ Hi) in J. destruct J as (Jc & Jd).
    pose proof (nth_error_In _ _ Hi) as Hin.
    assert (Hidx : idx < v) by (apply (idx_small _ s (t, Taken idx) idx I Hin); reflexivity).
    destruct (accumulate_ok (st_coll s) t idx (fun n => ksum (done_contrib n) (st_tasks s)) Hidx) as (r' & Er & Lr & Vr).
    { destruct (fst (st_coll s)) as [|c] eqn:E; [left; split; auto; intros n; apply (no_done _ s n I); auto|].
      right. split; [lia|]. apply Jd. lia. }
    rewrite Er. eexists. split; [reflexivity|].
    set (s' := State (upd (st_tasks s) i (t, Done idx)) (st_count s) (st_coll s)).
    assert (I' : inv s') by (apply (inv_deliver _ s i t idx); auto).
    assert (Hc' : (fst (st_coll s) + vectors t)%nat = nsum done_size (st_tasks s')).
    { rewrite Jc. pose proof (nsum_upd done_size _ _ _ (t, Done idx) Hi) as E. cbn in E. unfold size_of in E. cbn in E. cbn [st_tasks s']. lia. }
    assert (Hd' : forall n, nth n r' k0 = ksum (done_contrib n) (st_tasks s')).
    { intros n. rewrite Vr. pose proof (ksum_upd (done_contrib n) _ _ _ (t, Done idx) Hi) as E.
      assert (Q1 : done_contrib n (t, Taken idx) = k0) by reflexivity.
      assert (Q2 : done_contrib n (t, Done idx) = ksum (below n) (seq idx (vectors t))) by reflexivity.
      rewrite Q1, Q2 in E. cbn [st_tasks s']. rewrite <- E. ring. }
    unfold acc_inv. cbn [st_tasks st_coll]. change (upd (st_tasks s) i (t, Done idx)) with (st_tasks s').
    destruct (forallb is_done (st_tasks s')) eqn:Ef.
    - assert (Hge : v <= (fst (st_coll s) + vectors t)%nat).
      { rewrite Hc', done_all, (total_split _ s' I') by auto. apply tasks_ok. }
      unfold finish, scale. destruct (Nat.leb_spec v (fst (st_coll s) + vectors t)); [|lia]. cbn [andb].
      destruct (Nat.eqb_spec v 1) as [E1|E1]; cbn [negb snd].
      + exists r'. split; auto. split; auto. intros n. rewrite Hd', (all_done_sum _ s' n I' Ef). ring.
      + eexists. split; [reflexivity|]. split; [rewrite map_length; auto|]. intros n.
        assert (E0 : (k0 : R) = k0 * inv_v) by ring. rewrite E0 at 1. rewrite (map_nth (fun x => x * inv_v)).
        rewrite Hd', (all_done_sum _ s' n I' Ef). ring.
    - assert (Hlt : (fst (st_coll s) + vectors t < v)%nat) by (rewrite Hc'; apply (done_small _ s' I'); auto).
      unfold finish. destruct (Nat.leb_spec v (fst (st_coll s) + vectors t)); [lia|]. cbn [andb fst snd]. split; auto.
      intros _. exists r'. split; auto.
  Qed.

  Lemma acc_reach : forall d s, reach R bs mom (accumulator R) (accumulate R M v inv_v) (start bs v _ threads (0%nat, d)) s -> inv s /\ acc_inv s.
  Proof.
    intros d s H. induction H as [|s s' _ (I & J) Hs]; [split; [apply inv_start|apply acc_start]|].
    inversion Hs as [i t Hi E|i t idx Hi E].
    - split; [apply inv_take; auto|]. unfold acc_inv in *. cbn [st_tasks st_coll].
      assert (E1 : forallb is_done (st_tasks s) = false).
      { destruct (forallb is_done (st_tasks s)) eqn:Ef; auto. rewrite forallb_forall in Ef. specialize (Ef _ (nth_error_In _ _ Hi)). discriminate. }
      assert (E2 : forallb is_done (upd (st_tasks s) i (t, Taken (st_count s))) = false).
      { destruct (forallb is_done (upd _ _ _)) eqn:Ef; auto. rewrite forallb_forall in Ef.
        specialize (Ef _ (upd_in _ _ _ (t, Taken (st_count s)) Hi)). discriminate. }
      rewrite E1 in J. rewrite E2. destruct J as (Jc & Jd).
      assert (Q : nsum done_size (upd (st_tasks s) i (t, Taken (st_count s))) = nsum done_size (st_tasks s)).
      { pose proof (nsum_upd done_size _ _ _ (t, Taken (st_count s)) Hi) as Eq. cbn in Eq. lia. }
      rewrite Q. split; auto. intros Hp. destruct (Jd Hp) as (r & Er & Lr & Vr). exists r. split; auto. split; auto. intros n. rewrite Vr.
      pose proof (ksum_upd (done_contrib n) _ _ _ (t, Taken (st_count s)) Hi) as Eq.
      assert (Q1 : done_contrib n (t, Waiting) = k0) by reflexivity. assert (Q2 : done_contrib n (t, Taken (st_count s)) = k0) by reflexivity.
      rewrite Q1, Q2 in Eq. transitivity (ksum (done_contrib n) (st_tasks s) + k0); [ring|]. rewrite <- Eq. ring.
    - destruct (acc_deliver s i t idx I J Hi) as (c & Ec & J'). rewrite Ec in E. unfold omap in E. cbn [obind] in E. injection E as <-.
      split; [apply (inv_deliver _ s); auto|exact J'].
  Qed.

  (** ** Concatenator *)
  Definition con_inv (s : state (concatenator R)) : Prop :=
    (fst (st_coll s) = 0%nat <-> forall p, In p (st_tasks s) -> is_done p = false)
    /\ ((exists p, In p (st_tasks s) /\ is_done p = true) ->
         exists cols, snd (st_coll s) = Some cols /\ length cols = v
           /\ forall p i k, In p (st_tasks s) -> snd p = Done i -> i <= k < i + size_of p -> k < v -> nth_error cols k = Some (Some (mom k))).

  Lemma con_start : forall d, con_inv (start bs v (concatenator R) threads (0%nat, d)).
  Proof.
    intros d. split; cbn [st_tasks st_coll start fst snd].
    - split; auto. intros _ p Hp. apply in_map_iff in Hp. destruct Hp as (t & <- & _). reflexivity.
    - intros (p & Hp & E). apply in_map_iff in Hp. destruct Hp as (t & <- & _). discriminate.
  Qed.

  Lemma nth_error_upd : forall {A} (l : list A) i j a, i < length l -> nth_error (upd l i a) j = if j =? i then Some a else nth_error l j.
  Proof.
    intros A. induction l as [|x l IH]; intros i j a H; cbn in H; [lia|]. destruct i, j; cbn; auto. rewrite IH by lia. reflexivity.
  Qed.
  Lemma write_cols_ok : forall n (cols : list (option (list R))) i, (i + n <= length cols)%nat ->
    length (write_cols R cols i (map mom (seq i n))) = length cols
    /\ forall k, nth_error (write_cols R cols i (map mom (seq i n))) k
         = if (i <=? k) && (k <? i + n)%nat then Some (Some (mom k)) else nth_error cols k.
  Proof.
    induction n as [|n IH]; intros cols i H; cbn [seq map write_cols].
    - split; auto. intros k. destruct (Nat.leb_spec i k), (Nat.ltb_spec k (i + 0)); cbn; auto; lia.
    - destruct (IH (upd cols i (Some (mom i))) (S i)) as (L & V); [rewrite upd_length; lia|].
      split; [rewrite L, upd_length; auto|]. intros k. rewrite V, nth_error_upd by lia.
      destruct (Nat.leb_spec (S i) k), (Nat.ltb_spec k (S i + n)), (Nat.leb_spec i k), (Nat.ltb_spec k (i + S n)), (Nat.eqb_spec k i); cbn; try lia; subst; auto.
  Qed.

  Lemma concatenate_ok : forall (s : concatenator R) cols t idx, idx < v -> get_cols R v s = Ok cols -> length cols = v ->
    exists c cols', concatenate R v s (task_moments R bs mom t idx) idx = Ok (c, Some cols') /\ fst s < c /\ length cols' = v
      /\ forall k, nth_error cols' k = if (idx <=? k) && (k <? idx + vectors t) && (k <? v) then Some (Some (mom k)) else nth_error cols k.
  Proof.
    intros s cols t idx Hi Hc Hl. unfold concatenate. rewrite Hc. cbn [obind]. destruct t; cbn [task_moments KpmBatch.vectors].
    - rewrite map_length, seq_length. unfold used_cols. destruct (Nat.leb_spec idx v); [|lia]. cbn [obind].
      set (n := (if bs <? v - idx then bs else v - idx)%nat).
      assert (Hn : n <= bs /\ (idx + n <= v)%nat /\ 0 < n /\ (n = bs \/ idx + n = v)%nat) by (unfold n; destruct (Nat.ltb_spec bs (v - idx)); lia).
      destruct Hn as (N1 & N2 & N3 & N4). destruct (Nat.leb_spec (idx + n) (length cols)); [|lia]. rewrite firstn_map_mom by auto.
      destruct (write_cols_ok n cols idx ltac:(lia)) as (L & V). eexists. eexists. split; [reflexivity|]. split; [lia|]. split; [lia|].
      intros k. rewrite V. destruct (Nat.leb_spec idx k), (Nat.ltb_spec k (idx + n)), (Nat.ltb_spec k (idx + bs)), (Nat.ltb_spec k v); cbn; auto; lia.
    - destruct (Nat.ltb_spec idx (length cols)); [|lia]. eexists. eexists. split; [reflexivity|]. split; [lia|]. split; [rewrite upd_length; auto|].
      intros k. rewrite nth_error_upd by auto.
      destruct (Nat.eqb_spec k idx), (Nat.leb_spec idx k), (Nat.ltb_spec k (idx + 1)), (Nat.ltb_spec k v); cbn; try lia; subst; auto.
  Qed.

  Lemma con_deliver : forall s i t idx, inv s -> con_inv s -> nth_error (st_tasks s) i = Some (t, Taken idx) ->
    exists c, concatenate R v (st_coll s) (task_moments R bs mom t idx) idx = Ok c
      /\ con_inv (State (upd (st_tasks s) i (t, Done idx)) (st_count s) c).
  Proof.
    intros s i t idx I (J1 & J2) Hi. pose proof (nth_error_In _ _ Hi) as Hin.
    assert (Hidx : idx < v) by (apply (idx_small _ s (t, Taken idx) idx I Hin); reflexivity).
    assert (G : exists cols, get_cols R v (st_coll s) = Ok cols /\ length cols = v
      /\ forall p i k, In p (st_tasks s) -> snd p = Done i -> i <= k < i + size_of p -> k < v -> nth_error cols k = Some (Some (mom k))).
    { unfold get_cols. destruct (Nat.eqb_spec (fst (st_coll s)) 0) as [E|E].
      - exists (repeat None v). split; auto. split; [apply repeat_length|]. intros p j k Hp Hd. pose proof (proj1 J1 E p Hp) as Q.
        unfold is_done in Q. rewrite Hd in Q. discriminate.
      - destruct (existsb is_done (st_tasks s)) eqn:Ex.
        + apply existsb_exists in Ex. destruct (J2 Ex) as (cols & E1 & E2 & E3). exists cols. rewrite E1. auto.
        + exfalso. apply E. apply J1. intros p Hp. destruct (is_done p) eqn:Ed; auto.
          assert (existsb is_done (st_tasks s) = true) by (apply existsb_exists; exists p; auto). congruence. }
    destruct G as (cols & Ec & Lc & Vc). destruct (concatenate_ok (st_coll s) cols t idx Hidx Ec Lc) as (c & cols' & E & Hlt & L' & V').
    rewrite E. eexists. split; [reflexivity|]. split; cbn [st_tasks st_coll fst snd].
    - split; [intros; lia|]. intros H. exfalso. specialize (H _ (upd_in _ _ _ (t, Done idx) Hi)). discriminate.
    - intros _. exists cols'. split; auto. split; auto. intros p j k Hp Hd Hk Hkv. rewrite V'.
      destruct (Nat.leb_spec idx k), (Nat.ltb_spec k (idx + vectors t)), (Nat.ltb_spec k v); cbn; auto; try lia;
        (apply in_upd in Hp; destruct Hp as [-> |Hp]; [cbn in Hd; injection Hd as <-; unfold size_of in Hk; cbn in Hk; lia|eapply Vc; eauto]).
  Qed.

  Lemma con_reach : forall d s, reach R bs mom (concatenator R) (concatenate R v) (start bs v _ threads (0%nat, d)) s -> inv s /\ con_inv s.
  Proof.
    intros d s H. induction H as [|s s' _ (I & J) Hs]; [split; [apply inv_start|apply con_start]|].
    inversion Hs as [i t Hi E|i t idx Hi E].
    - split; [apply inv_take; auto|]. destruct J as (J1 & J2). split; cbn [st_tasks st_coll].
      + rewrite J1. split; intros H p Hp.
        * apply in_upd in Hp. destruct Hp as [-> |Hp]; auto.
        * assert (D : {p = (t, Waiting)} + {p <> (t, Waiting)}) by (repeat decide equality).
          destruct D as [-> |Hn]; [reflexivity|]. apply H. eapply upd_other; eauto.
      + intros (p & Hp & Ep). apply in_upd in Hp. destruct Hp as [-> |Hp]; [discriminate|].
        destruct (J2 (ex_intro _ p (conj Hp Ep))) as (cols & E1 & E2 & E3). exists cols. split; auto. split; auto.
        intros q j k Hq Hd. apply in_upd in Hq. destruct Hq as [-> |Hq]; [discriminate|]. apply (E3 q j k Hq Hd).
    - destruct (con_deliver s i t idx I J Hi) as (c & Ec & J'). rewrite Ec in E. unfold omap in E. cbn [obind] in E. injection E as <-.
      split; [apply (inv_deliver _ s); auto|exact J'].
  Qed.

  (** ** End results *)
  (** The accumulated moments are the mean. *)
  Lemma accumulate_result : forall d s, reach R bs mom (accumulator R) (accumulate R M v inv_v) (start bs v _ threads (0%nat, d)) s ->
    (forall o, step R bs mom _ (accumulate R M v inv_v) s o -> exists s', o = Ok s')
    /\ (finished _ s -> exists r, snd (st_coll s) = DVec r /\ length r = M /\ forall n, nth n r k0 = scale * ksum (val n) (seq 0 v)).
  Proof.
    intros d s H. destruct (acc_reach d s H) as (I & J). split.
    - intros o Hs. inversion Hs as [i t Hi E|i t idx Hi E]; [eexists; reflexivity|].
      destruct (acc_deliver s i t idx I J Hi) as (c & Ec & _). rewrite Ec. eexists. reflexivity.
    - intros F. unfold acc_inv in J. unfold finished in F. rewrite F in J. exact J.
  Qed.

  (** Column [k] of the concatenated moments belongs to start vector [k]. *)
  Lemma concatenate_result : forall d s, reach R bs mom (concatenator R) (concatenate R v) (start bs v _ threads (0%nat, d)) s ->
    (forall o, step R bs mom _ (concatenate R v) s o -> exists s', o = Ok s')
    /\ (finished _ s -> exists cols, snd (st_coll s) = Some cols /\ length cols = v /\ forall k, k < v -> nth_error cols k = Some (Some (mom k))).
  Proof.
    intros d s H. destruct (con_reach d s H) as (I & J). split.
    - intros o Hs. inversion Hs as [i t Hi E|i t idx Hi E]; [eexists; reflexivity|].
      destruct (con_deliver s i t idx I J Hi) as (c & Ec & _). rewrite Ec. eexists. reflexivity.
    - intros F. destruct J as (_ & J2). unfold finished in F. rewrite forallb_forall in F.
      assert (Hcnt : st_count s = T).
      { rewrite <- (i_count _ I), <- (total_split _ s I). unfold nsum. f_equal. apply map_ext_in. intros [t st] Hp.
        specialize (F _ Hp). destruct st; try discriminate. reflexivity. }
      destruct tasks_ok as (Hle & _ & Hpos).
      destruct (st_tasks s) as [|p0 l] eqn:El; [rewrite <- (i_tasks _ I), El in Hpos; cbn in Hpos; lia|]. rewrite <- El in *.
      assert (Hp0 : In p0 (st_tasks s)) by (rewrite El; left; auto).
      destruct (J2 (ex_intro _ p0 (conj Hp0 (F _ Hp0)))) as (cols & E1 & E2 & E3). exists cols. split; auto. split; auto.
      intros k Hk. destruct (i_cover _ I k ltac:(lia)) as (p & j & Hp & Hj & Hr).
      pose proof (F _ Hp) as Hd. destruct p as [t st]. destruct st as [|?|j']; try discriminate. cbn in Hj. injection Hj as ->.
      apply (E3 (t, Done j) j k); auto.
  Qed.

  (** No schedule gets stuck before every task has delivered, and every schedule is finite. *)
  Definition steps_left (p : task * status) : nat := match snd p with Waiting => 2 | Taken _ => 1 | Done _ => 0 end.
  Lemma schedule_progress : forall C collect (s : state C), ~ finished _ s -> exists o, step R bs mom C collect s o.
  Proof.
    intros C collect s H. unfold finished in H. destruct (forallb is_done (st_tasks s)) eqn:E; [congruence|].
    destruct (not_all_done _ E) as ([t st] & Hp & Ep). apply In_nth_error in Hp. destruct Hp as (i & Hi).
    destruct st; try discriminate; eexists; [eapply step_take; eauto|eapply step_deliver; eauto].
  Qed.
  Lemma schedule_finite : forall C collect (s s' : state C), step R bs mom C collect s (Ok s') ->
    (nsum steps_left (st_tasks s') < nsum steps_left (st_tasks s))%nat.
  Proof.
    intros C collect s s' H. inversion H as [i t Hi E|i t idx Hi E].
    - cbn [st_tasks]. pose proof (nsum_upd steps_left _ _ _ (t, Taken (st_count s)) Hi) as Q. cbn in Q. lia.
    - destruct (collect (st_coll s) (task_moments R bs mom t idx) idx); try discriminate. unfold omap in E. cbn [obind] in E. injection E as <-.
      cbn [st_tasks]. pose proof (nsum_upd steps_left _ _ _ (t, Done idx) Hi) as Q. cbn in Q. lia.
  Qed.
End BatchProofs.
