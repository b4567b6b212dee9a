(* Every interleaving of the thread pool. *)
From Verif Require Import Base Threads ThreadsSpec ThreadProofs ThreadLocal ParallelFor.
From Coq Require Import Permutation.

Section Proofs.
  Variable T : Type.
  Variable n : nat.
  Variable tasks : list T.
  Notation act := (@tpool T n).
  Notation start := (@tstart T n tasks).

  Definition isC (l : tloc T) := match l with TCtor _ => true | _ => false end.
  Definition isA (l : tloc T) := match l with TAdd _ => true | _ => false end.
  Definition isJ (l : tloc T) := match l with TJoin _ => true | _ => false end.
  Definition isD (l : tloc T) := match l with TDone _ => true | _ => false end.
  Definition todo (l : tloc T) : list T := match l with TCtor r | TAdd r => r | _ => [] end.
  Definition taken (l : tloc T) : list T := match l with TLoop d | TDone d => d | TRun f d => d ++ [f] | _ => [] end.
  Definition ran (l : tloc T) : list T := match l with TLoop d | TDone d | TRun _ d => d | _ => [] end.
  Definition trole (l : tloc T) : nat := match l with TCtor _ | TAdd _ | TJoin _ => 1 | _ => 0 end.
  Definition troles : list nat := repeat 0 n ++ [1].

  Definition P (Qs : nat -> queue T) (ls : list (tloc T)) : Prop :=
    countb isC ls + countb isA ls + countb isJ ls = 1 /\
    q_producers (Qs 0) = Z.of_nat (countb isA ls) /\
    (0 < countb isJ ls <-> q_closed (Qs 0) = true) /\
    (0 < countb isD ls -> q_closed (Qs 0) = true /\ q_items (Qs 0) = []) /\
    Permutation (q_in (Qs 0) ++ flat_map todo ls) tasks /\
    Permutation (q_out (Qs 0)) (flat_map taken ls) /\
    map trole ls = troles /\
    (forall k, In (TJoin k) ls -> k <= n /\ forall u, u < k -> exists x, nth_error ls u = Some x /\ act x = Halt).

  Ltac facts ET y :=
    let ts := match type of ET with nth_error ?x _ = Some _ => x end in
    pose proof (countb_upd isC ts _ _ y ET); pose proof (countb_upd isA ts _ _ y ET); pose proof (countb_upd isJ ts _ _ y ET); pose proof (countb_upd isD ts _ _ y ET);
    pose proof (flat_map_upd todo ts _ _ y ET) as F1; pose proof (flat_map_upd taken ts _ _ y ET) as F2;
    cbn [isC isA isJ isD b2n todo taken] in *; rewrite ?app_nil_r in F1; rewrite ?app_nil_r in F2.

  Lemma nth_upd_neq2 : forall {A} (l : list A) t u x, u <> t -> nth_error (upd l t x) u = nth_error l u.
  Proof. intros A. induction l as [|a l IH]; intros [|t] [|u] x H; cbn; try reflexivity; try congruence. apply IH. lia. Qed.

  Lemma P_step : forall Qs ls Qs' ls', (forall q, queue_ok T None (Qs q)) -> P Qs ls -> lstep act Qs ls Qs' ls' -> P Qs' ls'.
  Proof.
    intros Qs ls Qs' ls' QO (H1 & H2 & H3 & H4 & H5 & H6 & H7 & H8) S.
    assert (G : forall t l y, nth_error ls t = Some l -> act l <> Halt -> (forall k, y = TJoin k -> k <= n /\ forall u, u < k -> exists x, nth_error ls u = Some x /\ act x = Halt) ->
      forall k, In (TJoin k) (upd ls t y) -> k <= n /\ forall u, u < k -> exists x, nth_error (upd ls t y) u = Some x /\ act x = Halt).
    { intros t l y ET Nl Hy k Hk. apply upd_cases in Hk.
      assert (X : k <= n /\ forall u, u < k -> exists x, nth_error ls u = Some x /\ act x = Halt) by (destruct Hk as [Hk|Hk]; [apply Hy; auto|apply H8; auto]).
      destruct X as (X1 & X2). split; auto. intros u Hu. destruct (X2 u Hu) as (x & E & Hx). exists x. split; auto. rewrite nth_upd_neq2; auto. intros ->. congruence. }
    assert (C0 : q_closed (Qs 0) = true -> countb isA ls = 0). { intros C. destruct (QO 0) as (_ & _ & _ & X & _). specialize (X C). lia. }
    destruct S as [|t l l' ET EA|t l q v l' ET EA ER|t l q k v r ET EA EI|t l q k ET EA EI EC|t l q l' ET EA|t l q l' ET EA|t l u l' x ET EA EU EH].
    - unfold P. auto 20.
    - destruct l as [r|[|f r]|k|d|f d|d]; cbn [tpool] in EA; try discriminate; try (destruct (_ <? _); discriminate). injection EA as <-.
      facts ET (@TLoop T (d ++ [f])). unfold P. apply Permutation_app_inv_r in F2.
      split; [lia|]. split; [lia|]. split; [rewrite <- H3; lia|]. split; [intros; apply H4; lia|]. split; [rewrite F1; exact H5|]. split; [rewrite F2; exact H6|].
      split; [rewrite (role_upd trole ls t (TRun f d)); auto|]. apply (G t (TRun f d)); auto; discriminate.
    - destruct l as [r|[|f r]|k|d|f d|d]; cbn [tpool] in EA; try discriminate; try (destruct (_ <? _); discriminate). injection EA as <- <- <-.
      facts ET (@TAdd T r). unfold P. change (set_queue Qs 0 (push_item (Qs 0) f) 0) with (push_item (Qs 0) f). cbn [push_item q_closed q_producers q_items q_in q_out].
      assert (0 < countb isA ls) by (apply countb_pos; exists (TAdd (f :: r)); split; [eapply nth_error_In; eauto|reflexivity]).
      split; [lia|]. split; [lia|]. split; [rewrite <- H3; lia|]. split.
      { intros X. destruct H4 as (Y & _); [lia|]. specialize (C0 Y). lia. }
      split. { rewrite <- H5, <- app_assoc. apply Permutation_app_head. cbn [app]. rewrite (Permutation_app_comm _ (f :: r)) in F1. rewrite (Permutation_app_comm _ r) in F1.
        apply (Permutation_app_inv_l r). rewrite <- F1. cbn [app]. symmetry. apply Permutation_middle. }
      split; [rewrite F2; exact H6|].
      split; [rewrite (role_upd trole ls t (TAdd (f :: r))); auto|]. apply (G t (TAdd (f :: r))); auto; discriminate.
    - destruct l as [r0|[|f r0]|k0|d|f d|d]; cbn [tpool] in EA; try discriminate; try (destruct (_ <? _); discriminate). injection EA as <- <-.
      facts ET (@TRun T v d). unfold P. change (set_queue Qs 0 (pop_item (Qs 0) v r) 0) with (pop_item (Qs 0) v r). cbn [pop_item q_closed q_producers q_items q_in q_out].
      split; [lia|]. split; [lia|]. split; [rewrite <- H3; lia|]. split.
      { intros X. destruct H4 as (_ & Y); [lia|]. congruence. }
      split; [rewrite F1; exact H5|]. split.
      { rewrite H6. symmetry. apply (Permutation_app_inv_r d). etransitivity; [exact F2|]. rewrite <- app_assoc. apply Permutation_app_head, Permutation_app_comm. }
      split; [rewrite (role_upd trole ls t (TLoop d)); auto|]. apply (G t (TLoop d)); auto; discriminate.
    - destruct l as [r0|[|f r0]|k0|d|f d|d]; cbn [tpool] in EA; try discriminate; try (destruct (_ <? _); discriminate). injection EA as <- <-.
      facts ET (@TDone T d). unfold P. apply Permutation_app_inv_r in F2.
      split; [lia|]. split; [lia|]. split; [rewrite <- H3; lia|]. split; [auto|]. split; [rewrite F1; exact H5|]. split; [rewrite F2; exact H6|].
      split; [rewrite (role_upd trole ls t (TLoop d)); auto|]. apply (G t (TLoop d)); auto; discriminate.
    - destruct l as [r|[|f r]|k|d|f d|d]; cbn [tpool] in EA; try discriminate; try (destruct (_ <? _); discriminate). injection EA as <- <-.
      facts ET (@TAdd T r). unfold P. change (set_queue Qs 0 (add_producer (Qs 0)) 0) with (add_producer (Qs 0)). unfold add_producer. cbn [q_closed q_producers q_items q_in q_out].
      destruct (Z.ltb_spec 0 (q_producers (Qs 0) + 1)); [|lia].
      split; [lia|]. split; [lia|]. split; [split; [intros; lia|discriminate]|]. split.
      { intros X. destruct H4 as (Y & _); [lia|]. apply H3 in Y. lia. }
      apply Permutation_app_inv_r in F1. split; [rewrite F1; exact H5|]. split; [rewrite F2; exact H6|].
      split; [rewrite (role_upd trole ls t (TCtor r)); auto|]. apply (G t (TCtor r)); auto; discriminate.
    - destruct l as [r|[|f r]|k|d|f d|d]; cbn [tpool] in EA; try discriminate; try (destruct (_ <? _); discriminate). injection EA as <- <-.
      facts ET (@TJoin T 0). unfold P. change (set_queue Qs 0 (remove_producer (Qs 0)) 0) with (remove_producer (Qs 0)). unfold remove_producer. cbn [q_closed q_producers q_items q_in q_out].
      destruct (Z.leb_spec (q_producers (Qs 0) - 1) 0); [|lia].
      split; [lia|]. split; [lia|]. split; [split; [auto|intros; lia]|]. split.
      { intros X. destruct H4 as (Y & Z); [lia|]. auto. }
      split; [rewrite F1; exact H5|]. split; [rewrite F2; exact H6|].
      split; [rewrite (role_upd trole ls t (TAdd [])); auto|]. apply (G t (TAdd [])); auto; [discriminate|]. intros k E. injection E as <-. split; [lia|]. intros; lia.
    - destruct l as [r|[|f r]|k|d|f d|d]; cbn [tpool] in EA; try discriminate; try (destruct (_ <? _); discriminate).
      destruct (Nat.ltb_spec k n); [|discriminate]. injection EA as <- <-.
      facts ET (@TJoin T (S k)). unfold P.
      split; [lia|]. split; [lia|]. split; [rewrite <- H3; lia|]. split; [intros; apply H4; lia|]. split; [rewrite F1; exact H5|]. split; [rewrite F2; exact H6|].
      split; [rewrite (role_upd trole ls t (TJoin k)); auto|]. apply (G t (TJoin k)); auto.
      + cbn [tpool]. destruct (Nat.ltb_spec k n); [discriminate|lia].
      + intros k0 E. injection E as <-. destruct (H8 k ltac:(eapply nth_error_In; eauto)) as (X1 & X2). split; [lia|]. intros u0 Hu.
        destruct (Nat.eq_dec u0 k) as [->|]; [eauto|]. apply X2. lia.
  Qed.

  Theorem pool_invariant : forall s, reachable act start s -> P (queues s) (map loc (threads s)).
  Proof.
    intros s HR. apply (local_invariant _ _ act P (fun _ => None) (repeat (TLoop []) n ++ [TCtor tasks])); auto.
    - intros Qs ls Qs' ls' QO HP S. eapply P_step; eauto.
    - assert (Z : forall p : tloc T -> bool, p (TLoop []) = false -> countb p (repeat (TLoop []) n) = 0).
      { intros p Hp. apply countb_zero. intros x Hx. apply repeat_spec in Hx. subst x. exact Hp. }
      assert (Zf : forall {B} (f : tloc T -> list B), f (TLoop []) = [] -> flat_map f (repeat (TLoop []) n) = []).
      { intros B f Hf. clear -Hf. induction n; cbn; auto. rewrite Hf. exact IHn0. }
      unfold P. rewrite !countb_app2, !countb_cons, !Z by reflexivity. cbn [new_queue q_in q_out q_producers q_closed q_items].
      split; [reflexivity|]. split; [reflexivity|]. split; [cbn; split; intros; [lia|discriminate]|]. split; [cbn; lia|].
      split; [rewrite flat_map_app, Zf by reflexivity; cbn; rewrite app_nil_r; reflexivity|].
      split; [rewrite flat_map_app, Zf by reflexivity; constructor|].
      split; [rewrite map_app; unfold troles; f_equal; clear; induction n; cbn; congruence|].
      intros k Hk. apply in_app_or in Hk. destruct Hk as [Hk|[Hk|[]]]; [apply repeat_spec in Hk|]; discriminate.
  Qed.

  Lemma trole_at : forall ls k x, map trole ls = troles -> nth_error ls k = Some x -> (k < n <-> trole x = 0) /\ (k = n <-> trole x = 1).
  Proof.
    intros ls k x H E. assert (X : nth_error troles k = Some (trole x)) by (rewrite <- H, nth_error_map, E; reflexivity).
    unfold troles in X. destruct (Nat.lt_ge_cases k n).
    - rewrite nth_error_app1 in X by (rewrite repeat_length; auto). apply nth_error_In, repeat_spec in X. rewrite X. split; lia.
    - rewrite nth_error_app2 in X by (rewrite repeat_length; auto). rewrite repeat_length in X.
      destruct (k - n) as [|[|z]] eqn:Ez; cbn in X; [injection X as <-|discriminate|discriminate]; split; lia.
  Qed.
  Lemma tthread_at : forall ls k, map trole ls = troles -> k <= n -> exists x, nth_error ls k = Some x.
  Proof.
    intros ls k H Hk. destruct (nth_error ls k) as [x|] eqn:E; [eauto|]. apply nth_error_None in E. exfalso.
    assert (length ls = length troles) by (rewrite <- H, map_length; reflexivity). unfold troles in *. rewrite app_length, repeat_length in *. cbn in *. lia.
  Qed.

  (** Tasks that were run to the end, task lists not yet submitted, and the owner after [join]. *)
  Definition executed (s : state T (tloc T)) : list T := flat_map ran (map loc (threads s)).
  Definition joined (s : state T (tloc T)) : Prop := exists k, nth_error (threads s) n = Some (Run (TJoin k)) /\ act (TJoin k) = Halt.

  Theorem pool_no_deadlock : forall s, reachable act start s -> stuck act s -> finished act s.
  Proof.
    intros s HR HS. destruct (pool_invariant s HR) as (H1 & H2 & H3 & H4 & H5 & H6 & H7 & H8).
    assert (TS : forall t x, nth_error (map loc (threads s)) t = Some x -> exists st, nth_error (threads s) t = Some st /\ loc st = x).
    { intros t x E. rewrite nth_error_map in E. destruct (nth_error (threads s) t) as [st|]; [|discriminate]. injection E as <-. eauto. }
    assert (SL : forall l, In (Sleep l) (threads s) -> exists d, l = TLoop d /\ q_closed (queues s 0) = false).
    { intros l Hst. pose proof (sleepers_ok _ _ act _ _ s HR _ Hst) as SO. destruct (stuck_sleepers _ _ act _ _ s HR HS _ Hst) as (SP & SU). cbn in SO.
      destruct l as [r|[|f r]|k|d|f d|d]; cbn [tpool] in SO; try (exfalso; exact SO); try (exfalso; destruct (_ <? _); exact SO).
      - destruct (SU 0) as (m & Em & _); [eexists; eexists; eexists; split; reflexivity|]. discriminate.
      - exists d. split; auto. apply (SP 0). eexists. eexists. split; reflexivity. }
    assert (C0 : q_closed (queues s 0) = true).
    { apply H3. destruct (tthread_at (map loc (threads s)) n H7 ltac:(lia)) as (x & Ex). destruct (TS _ _ Ex) as (st & Es & Lx).
      destruct (trole_at _ _ _ H7 Ex) as (_ & R1). assert (trole x = 1) as Rx by (apply R1; auto).
      destruct (stuck_status _ _ act s HS _ _ Es) as [(l & -> & Hl)|[(l & u & l' & -> & Hl & _)|(l & ->)]]; cbn in Lx; subst x.
      - apply countb_pos. exists l. split; [eapply nth_error_In; eauto|]. destruct l as [r|[|f r]|k|d|f d|d]; cbn [tpool] in Hl; try discriminate. reflexivity.
      - apply countb_pos. exists l. split; [eapply nth_error_In; eauto|]. destruct l as [r|[|f r]|k|d|f d|d]; cbn [tpool] in Hl; try discriminate. reflexivity.
      - destruct (SL _ (nth_error_In _ _ Es)) as (d & -> & _). discriminate. }
    assert (NS : forall l, ~ In (Sleep l) (threads s)). { intros l Hl. destruct (SL _ Hl) as (d & _ & E). congruence. }
    intros st Hst. apply In_nth_error in Hst. destruct Hst as (t & Es).
    destruct (stuck_status _ _ act s HS _ _ Es) as [(l & -> & Hl)|[(l & u & l' & -> & Hl & Hu)|(l & ->)]].
    - eauto.
    - exfalso. destruct l as [r|[|f r]|k|d|f d|d]; cbn [tpool] in Hl; try discriminate.
      destruct (Nat.ltb_spec k n); [|discriminate]. injection Hl as <- <-.
      destruct (tthread_at (map loc (threads s)) k H7 ltac:(lia)) as (x & Ex). destruct (TS _ _ Ex) as (st & Es' & Lx). destruct (trole_at _ _ _ H7 Ex) as (R0 & _).
      assert (trole x = 0) as Rx by (apply R0; auto). specialize (Hu _ Es').
      destruct (stuck_status _ _ act s HS _ _ Es') as [(l & -> & Hl)|[(l & u & l' & -> & Hl & _)|(l & ->)]]; cbn in Lx; subst x.
      + cbn in Hu. rewrite Hl in Hu. discriminate.
      + destruct l as [r|[|f r]|k2|d|f d|d]; cbn [tpool] in Hl; discriminate.
      + eapply NS. eapply nth_error_In; eauto.
    - exfalso. eapply NS. eapply nth_error_In; eauto.
  Qed.

  Lemma ran_taken : forall ls, exists r, Permutation (flat_map ran ls ++ r) (flat_map taken ls).
  Proof.
    induction ls as [|l ls (r & IH)]; [exists []; constructor|].
    assert (X : exists r', ran l ++ r' = taken l). { destruct l; cbn; [exists []|exists []|exists []|exists []|exists [f]|exists []]; rewrite ?app_nil_r; reflexivity. }
    destruct X as (r' & X). exists (r' ++ r). cbn [flat_map]. rewrite <- X, <- !app_assoc. apply Permutation_app_head. rewrite <- IH.
    apply Permutation_app_swap_app.
  Qed.
  Theorem pool_once : forall s, reachable act start s -> exists rest, Permutation (executed s ++ rest) tasks.
  Proof.
    intros s HR. destruct (pool_invariant s HR) as (_ & _ & _ & _ & H5 & H6 & _). destruct (queues_ok _ _ act _ _ s HR 0) as (Q0 & _).
    destruct (ran_taken (map loc (threads s))) as (r & X). exists (r ++ q_items (queues s 0) ++ flat_map todo (map loc (threads s))).
    unfold executed. rewrite app_assoc, X, <- H6, app_assoc, <- Q0. exact H5.
  Qed.

  Theorem pool_results : 1 <= n -> forall s, reachable act start s -> joined s -> Permutation (executed s) tasks.
  Proof.
    intros Hn s HR (k & Es & Hk). destruct (pool_invariant s HR) as (H1 & H2 & H3 & H4 & H5 & H6 & H7 & H8). destruct (queues_ok _ _ act _ _ s HR 0) as (Q0 & _).
    cbn [tpool] in Hk. destruct (Nat.ltb_spec k n); [discriminate|].
    assert (Hj : In (TJoin k) (map loc (threads s))) by (change (TJoin k) with (loc (Run (@TJoin T k))); apply in_map; eapply nth_error_In; eauto).
    destruct (H8 k Hj) as (Hk2 & HM).
    assert (EX : nth_error (map loc (threads s)) n = Some (TJoin k)) by (rewrite nth_error_map, Es; reflexivity).
    assert (CL : forall t x, nth_error (map loc (threads s)) t = Some x -> (exists d, x = TDone d) \/ x = TJoin k).
    { intros t x Ex. destruct (trole_at _ _ _ H7 Ex) as (R0 & R1). destruct (Nat.lt_ge_cases t n) as [Ht|Ht].
      - left. destruct (HM t ltac:(lia)) as (y & Ey & Hy). assert (y = x) as -> by congruence. assert (trole x = 0) as Rx by (apply R0; auto).
        destruct x as [r|[|f r]|k2|d|f d|d]; cbn [tpool] in Hy; try discriminate. eauto.
      - right. assert (t < length (map loc (threads s))) as Lt by (apply nth_error_Some; congruence).
        assert (length (map loc (threads s)) = length troles) as LL by (rewrite <- H7, (map_length trole); reflexivity). unfold troles in LL. rewrite app_length, repeat_length in LL. cbn in LL.
        assert (t = n) as -> by lia. congruence. }
    assert (I0 : q_items (queues s 0) = []).
    { apply H4. destruct (tthread_at (map loc (threads s)) 0 H7 ltac:(lia)) as (x & Ex). destruct (trole_at _ _ _ H7 Ex) as (R0 & _). assert (trole x = 0) as Rx by (apply R0; lia).
      apply countb_pos. exists x. split; [eapply nth_error_In; eauto|]. destruct (CL _ _ Ex) as [(d & ->)| ->]; [reflexivity|discriminate]. }
    assert (F : flat_map todo (map loc (threads s)) = [] /\ flat_map ran (map loc (threads s)) = flat_map taken (map loc (threads s))).
    { assert (A : forall x, In x (map loc (threads s)) -> todo x = [] /\ ran x = taken x).
      { intros x Hx. apply In_nth_error in Hx. destruct Hx as (t & Ex). destruct (CL _ _ Ex) as [(d & ->)| ->]; cbn; auto. }
      clear -A. induction (map loc (threads s)) as [|l ls IH]; [auto|]. destruct (IH ltac:(intros; apply A; right; auto)) as (X & Y). destruct (A l ltac:(left; auto)) as (B & C).
      cbn [flat_map]. rewrite X, Y, B, C. auto. }
    destruct F as (F1 & F2). unfold executed. rewrite F2, <- H6. rewrite F1, app_nil_r in H5. rewrite I0, app_nil_r in Q0. rewrite <- Q0. exact H5.
  Qed.

  Definition trho (l : tloc T) : nat :=
    match l with TCtor r => 7 * length r + 2 * n + 4 | TAdd r => 7 * length r + 2 * n + 3 | TJoin k => n - k | TLoop _ => 1 | TRun _ _ => 2 | TDone _ => 0 end.
  Lemma pool_pays : forall l, pays T (tloc T) act trho (fun _ => 4) (n + 1) 1 l.
  Proof.
    intros l. unfold pays. destruct l as [r|[|f r]|k|d|f d|d]; cbn [tpool]; try (cbn [trho length]; repeat split; intros; cbn [trho]; lia).
    destruct (Nat.ltb_spec k n); cbn [trho]; [lia|exact I].
  Qed.
  Theorem pool_bound : forall cs s, run act start cs = Some s -> length cs <= 7 * length tasks + 4 * n + 5 + 2 * spurious cs.
  Proof.
    intros cs s E. pose proof (schedule_bound _ _ act trho (fun _ => 4) (n + 1) 1 pool_pays cs start s) as B.
    assert (L0 : length (threads start) = n + 1). { unfold tstart, initial. cbn. rewrite map_length, app_length, repeat_length. reflexivity. }
    specialize (B L0 E). unfold potential in B at 2. unfold tstart, initial in B. cbn [threads queues] in B. rewrite !map_app, !map_map in B.
    assert (R : forall k, map (fun x : tloc T => weight (tloc T) trho (n + 1) (Run x)) (repeat (TLoop []) k) = repeat 2 k).
    { induction k; cbn [repeat map]; [reflexivity|]. rewrite IHk. reflexivity. }
    unfold list_sum in *. rewrite R in B. rewrite fold_right_app in B. cbn [seq map fold_right weight trho new_queue q_items length] in B.
    assert (F : forall k a, fold_right Nat.add a (repeat 2 k) = k * 2 + a). { induction k; intros; cbn; [lia|]. rewrite IHk. lia. }
    rewrite F in B. lia.
  Qed.
End Proofs.
