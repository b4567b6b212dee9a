(* Invariants of queue programs only look at the queues and the local states. *)
From Verif Require Import Base Threads ThreadsSpec ThreadProofs.
From Coq Require Import Permutation.

Section Loc.
  Variable V L : Type.
  Variable act : L -> instr V L.
  Notation state := (state V L). Notation status := (status L). Notation queue := (queue V).

  Definition loc (st : status) : L := match st with Run l | Sleep l => l | Note _ _ l => l end.

  Inductive lstep (Qs : nat -> queue) (ls : list L) : (nat -> queue) -> list L -> Prop :=
  | l_same : lstep Qs ls Qs ls
  | l_local : forall t l l', nth_error ls t = Some l -> act l = Local l' -> lstep Qs ls Qs (upd ls t l')
  | l_push : forall t l q v l', nth_error ls t = Some l -> act l = Push q v l' -> has_room (Qs q) = true ->
      lstep Qs ls (set_queue Qs q (push_item (Qs q) v)) (upd ls t l')
  | l_pop : forall t l q k v r, nth_error ls t = Some l -> act l = Pop q k -> q_items (Qs q) = v :: r ->
      lstep Qs ls (set_queue Qs q (pop_item (Qs q) v r)) (upd ls t (k (Some v)))
  | l_closed : forall t l q k, nth_error ls t = Some l -> act l = Pop q k -> q_items (Qs q) = [] -> q_closed (Qs q) = true ->
      lstep Qs ls Qs (upd ls t (k None))
  | l_add : forall t l q l', nth_error ls t = Some l -> act l = AddProducer q l' -> lstep Qs ls (set_queue Qs q (add_producer (Qs q))) (upd ls t l')
  | l_remove : forall t l q l', nth_error ls t = Some l -> act l = RemoveProducer q l' -> lstep Qs ls (set_queue Qs q (remove_producer (Qs q))) (upd ls t l')
  | l_join : forall t l u l' x, nth_error ls t = Some l -> act l = Join u l' -> nth_error ls u = Some x -> act x = Halt -> lstep Qs ls Qs (upd ls t l').

  Lemma map_upd : forall {A B} (f : A -> B) l t x, map f (upd l t x) = upd (map f l) t (f x).
  Proof. intros A B f. induction l as [|a l IH]; intros [|t] x; cbn; try reflexivity. rewrite IH. reflexivity. Qed.
  Lemma upd_same : forall {A} (l : list A) t x, nth_error l t = Some x -> upd l t x = l.
  Proof. intros A. induction l as [|a l IH]; intros [|t] x H; cbn in *; try discriminate; [congruence|]. rewrite IH by auto. reflexivity. Qed.

  Lemma move_lstep : forall s b s', move V L act s b s' -> lstep (queues s) (map loc (threads s)) (queues s') (map loc (threads s')).
  Proof.
    intros s b s' M.
    assert (N : forall t st, nth_error (threads s) t = Some st -> nth_error (map loc (threads s)) t = Some (loc st)).
    { intros t st H. rewrite nth_error_map, H. reflexivity. }
    destruct M as [t l l' ET EA|t l q v l' ET EA ER|t l q v l' ET EA ER|t l q k v r ET EA EI|t l q k ET EA EI EC|t l q k ET EA EI EC|t l q l' ET EA|t l q l' ET EA
        |t l u l' st' ET EA EU EH|t k q l' w l ET NK EW EA|t k q l' ET NK EX|t q l' ET|t l ET]; cbn [threads queues].
    all: pose proof (N _ _ ET) as NT; cbn [loc] in NT; rewrite ?map_upd; cbn [loc].
    - eapply l_local; eauto.
    - eapply l_push; eauto.
    - rewrite upd_same by auto. apply l_same.
    - eapply l_pop; eauto.
    - eapply l_closed; eauto.
    - rewrite upd_same by auto. apply l_same.
    - eapply l_add; eauto.
    - eapply l_remove; eauto.
    - destruct st' as [l2|l2|k2 q2 l2]; try discriminate. cbn in EH. destruct (act l2) eqn:E2; try discriminate. eapply l_join; eauto.
    - rewrite (upd_same (map loc (threads s)) t) by auto. rewrite upd_same; [apply l_same|].
      assert (X : nth_error (map loc (upd (threads s) t (Run l'))) w = Some l) by (rewrite nth_error_map, EW; reflexivity).
      rewrite map_upd in X. cbn [loc] in X. rewrite upd_same in X by auto. exact X.
    - rewrite upd_same by auto. apply l_same.
    - assert (X : forall ts, map loc (map (fun st => if asleep_pop act q st then wake st else st) ts) = map loc ts).
      { intros ts. rewrite map_map. apply map_ext. intros x. destruct x as [x|x|k1 q1 x]; cbn; auto. destruct (act x); auto. destruct (_ =? q); auto. }
      rewrite X.
      rewrite upd_same by auto. apply l_same.
    - rewrite upd_same by auto. apply l_same.
  Qed.

  Lemma local_invariant : forall (I : (nat -> queue) -> list L -> Prop) max ls0,
    (forall Qs ls Qs' ls', (forall q, queue_ok V (max q) (Qs q)) -> I Qs ls -> lstep Qs ls Qs' ls' -> I Qs' ls') ->
    I (fun q => new_queue (max q)) ls0 -> forall s, reachable act (initial max ls0) s -> I (queues s) (map loc (threads s)).
  Proof.
    intros I max ls0 HI H0 s HR.
    apply (invariant V L act (fun s => (forall q, queue_ok V (max q) (queues s q)) /\ I (queues s) (map loc (threads s)))) with (s0 := initial max ls0); auto.
    - intros s1 b s2 (HQ & H1) M. split; [eapply queue_move; eauto|]. eapply HI; eauto. eapply move_lstep; eauto.
    - split; [apply (queues_ok V L act max ls0); exists []; reflexivity|]. unfold initial. cbn. rewrite map_map. cbn. rewrite map_id. exact H0.
  Qed.
End Loc.
Arguments loc {L}. Arguments lstep {V L}.

Lemma flat_map_upd : forall {A B} (f : A -> list B) l t x y, nth_error l t = Some x -> Permutation (flat_map f (upd l t y) ++ f x) (flat_map f l ++ f y).
Proof.
  intros A B f. induction l as [|a l IH]; intros [|t] x y H; try discriminate; cbn [upd nth_error flat_map] in *.
  - injection H as ->. rewrite <- !app_assoc. etransitivity; [apply (Permutation_app_comm (f y))|]. rewrite <- app_assoc.
    etransitivity; [apply Permutation_app_comm|]. rewrite <- app_assoc. etransitivity; [|apply Permutation_app_head, Permutation_app_comm]. reflexivity.
  - rewrite <- !app_assoc. apply Permutation_app_head. apply IH. exact H.
Qed.
Lemma countb_map2 : forall {A B} (p : B -> bool) (f : A -> B) l, countb p (map f l) = countb (fun x => p (f x)) l.
Proof. intros. unfold countb. induction l as [|x l IH]; [reflexivity|]. cbn. destruct (p (f x)); cbn; rewrite IH; reflexivity. Qed.
Lemma role_upd : forall {A} (f : A -> nat) l t x y, nth_error l t = Some x -> f y = f x -> map f (upd l t y) = map f l.
Proof. intros A f. induction l as [|a l IH]; intros [|t] x y H E; try discriminate; cbn in *; [congruence|]. rewrite (IH t x y); auto. Qed.
