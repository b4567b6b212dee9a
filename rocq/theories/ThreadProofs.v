(* Facts about every program over the queues: order, capacity, no lost wake-up, potentials. *)
From Verif Require Import Base Threads ThreadsSpec.

Lemma countb_cons : forall {A} (p : A -> bool) x l, countb p (x :: l) = b2n (p x) + countb p l.
Proof. intros. unfold countb. cbn. destruct (p x); reflexivity. Qed.
Lemma countb_upd : forall {A} (p : A -> bool) l t x y, nth_error l t = Some x ->
  countb p (upd l t y) + b2n (p x) = countb p l + b2n (p y).
Proof.
  intros A p. induction l as [|a l IH]; intros [|t] x y H; try discriminate; cbn [upd nth_error] in *; rewrite !countb_cons.
  - injection H as ->. lia.
  - specialize (IH t x y H). lia.
Qed.
Lemma countb_pos : forall {A} (p : A -> bool) l, 0 < countb p l <-> exists x, In x l /\ p x = true.
Proof.
  intros A p l. unfold countb. split.
  - intros H. destruct (filter p l) as [|x r] eqn:E; [cbn in H; lia|].
    exists x. apply filter_In. rewrite E. left. reflexivity.
  - intros (x & Hx & Px). assert (In x (filter p l)) by (apply filter_In; auto). destruct (filter p l); [destruct H|cbn; lia].
Qed.
Lemma countb_map_le : forall {A} (p : A -> bool) (f : A -> A) l, (forall x, p x = true -> p (f x) = true) -> countb p l <= countb p (map f l).
Proof.
  intros A p f l H. induction l as [|x l IH]; [reflexivity|]. cbn [map]. rewrite !countb_cons. specialize (H x). destruct (p x); [rewrite H by auto; lia|cbn; lia].
Qed.
Lemma countb_map_same : forall {A} (p : A -> bool) (f : A -> A) l, (forall x, p (f x) = p x) -> countb p (map f l) = countb p l.
Proof. intros A p f l H. induction l as [|x l IH]; [reflexivity|]. cbn [map]. rewrite !countb_cons, H, IH. reflexivity. Qed.
Lemma countb_zero : forall {A} (p : A -> bool) l, (forall x, In x l -> p x = false) -> countb p l = 0.
Proof.
  intros A p l H. destruct (countb p l) eqn:E; [reflexivity|]. assert (0 < countb p l) as P by lia. apply countb_pos in P. destruct P as (x & Hx & Px).
  rewrite H in Px by auto. discriminate.
Qed.

Section Generic.
  Variable V L : Type.
  Variable act : L -> instr V L.
  Notation state := (state V L). Notation status := (status L). Notation queue := (queue V).

  (** The steps, one constructor per case; the flag marks wake-ups without notification. *)
  Inductive move (s : state) : bool -> state -> Prop :=
  | m_local : forall t l l', nth_error (threads s) t = Some (Run l) -> act l = Local l' ->
      move s false (State (queues s) (upd (threads s) t (Run l')))
  | m_push : forall t l q v l', nth_error (threads s) t = Some (Run l) -> act l = Push q v l' -> has_room (queues s q) = true ->
      move s false (State (set_queue (queues s) q (push_item (queues s q) v)) (upd (threads s) t (Note OneConsumer q l')))
  | m_full : forall t l q v l', nth_error (threads s) t = Some (Run l) -> act l = Push q v l' -> has_room (queues s q) = false ->
      move s false (State (queues s) (upd (threads s) t (Sleep l)))
  | m_pop : forall t l q k v r, nth_error (threads s) t = Some (Run l) -> act l = Pop q k -> q_items (queues s q) = v :: r ->
      move s false (State (set_queue (queues s) q (pop_item (queues s q) v r)) (upd (threads s) t (Note OneProducer q (k (Some v)))))
  | m_closed : forall t l q k, nth_error (threads s) t = Some (Run l) -> act l = Pop q k -> q_items (queues s q) = [] -> q_closed (queues s q) = true ->
      move s false (State (queues s) (upd (threads s) t (Run (k None))))
  | m_empty : forall t l q k, nth_error (threads s) t = Some (Run l) -> act l = Pop q k -> q_items (queues s q) = [] -> q_closed (queues s q) = false ->
      move s false (State (queues s) (upd (threads s) t (Sleep l)))
  | m_add : forall t l q l', nth_error (threads s) t = Some (Run l) -> act l = AddProducer q l' ->
      move s false (State (set_queue (queues s) q (add_producer (queues s q))) (upd (threads s) t (Run l')))
  | m_remove : forall t l q l', nth_error (threads s) t = Some (Run l) -> act l = RemoveProducer q l' ->
      move s false (State (set_queue (queues s) q (remove_producer (queues s q))) (upd (threads s) t (Note AllConsumers q l')))
  | m_join : forall t l u l' st, nth_error (threads s) t = Some (Run l) -> act l = Join u l' -> nth_error (threads s) u = Some st -> halted act st = true ->
      move s false (State (queues s) (upd (threads s) t (Run l')))
  | m_one : forall t k q l' w l, nth_error (threads s) t = Some (Note k q l') -> k <> AllConsumers ->
      nth_error (upd (threads s) t (Run l')) w = Some (Sleep l) -> asleep act k q (Sleep l) = true ->
      move s false (State (queues s) (upd (upd (threads s) t (Run l')) w (Run l)))
  | m_none : forall t k q l', nth_error (threads s) t = Some (Note k q l') -> k <> AllConsumers ->
      existsb (asleep act k q) (upd (threads s) t (Run l')) = false ->
      move s false (State (queues s) (upd (threads s) t (Run l')))
  | m_all : forall t q l', nth_error (threads s) t = Some (Note AllConsumers q l') ->
      move s false (State (queues s) (map (fun st => if asleep_pop act q st then wake st else st) (upd (threads s) t (Run l'))))
  | m_spurious : forall t l, nth_error (threads s) t = Some (Sleep l) ->
      move s true (State (queues s) (upd (threads s) t (Run l))).

  Definition is_spurious (c : choice) : bool := match c with Spurious _ => true | _ => false end.

  Lemma step_move : forall s c s', step act s c = Some s' -> move s (is_spurious c) s'.
  Proof.
    intros s [t w|t] s' H; cbn [step is_spurious] in *.
    - unfold step_thread in H. destruct (nth_error (threads s) t) as [[l|l|k q l']|] eqn:ET; try discriminate.
      + destruct (act l) as [|l'|q v l'|q k|q l'|q l'|u l'] eqn:EA; try discriminate.
        * injection H as <-. eapply m_local; eauto.
        * destruct (has_room (queues s q)) eqn:ER; injection H as <-; [eapply m_push; eauto|eapply m_full; eauto].
        * destruct (q_items (queues s q)) as [|v r] eqn:EI; [destruct (q_closed (queues s q)) eqn:EC|]; injection H as <-;
            [eapply m_closed; eauto|eapply m_empty; eauto|eapply m_pop; eauto].
        * injection H as <-. eapply m_add; eauto.
        * injection H as <-. eapply m_remove; eauto.
        * destruct (nth_error (threads s) u) as [st|] eqn:EU; [|discriminate]. destruct (halted act st) eqn:EH; [|discriminate]. injection H as <-. eapply m_join; eauto.
      + assert (G : k <> AllConsumers -> (let ts := upd (threads s) t (Run l') in
          if existsb (asleep act k q) ts
          then match nth_error ts w with Some st => if asleep act k q st then Some (State (queues s) (upd ts w (wake st))) else None | None => None end
          else Some (State (queues s) ts)) = Some s' -> move s false s').
        { intros Nk G. cbv zeta in G. destruct (existsb (asleep act k q) (upd (threads s) t (Run l'))) eqn:EX.
          - destruct (nth_error (upd (threads s) t (Run l')) w) as [st|] eqn:EW; [|discriminate]. destruct (asleep act k q st) eqn:EA; [|discriminate].
            injection G as <-. destruct st as [l|l|k2 q2 l2]; try (destruct k; discriminate). cbn [wake]. eapply m_one; eauto.
          - injection G as <-. eapply m_none; eauto. }
        destruct k; [apply G; [discriminate|exact H]|apply G; [discriminate|exact H]|]. injection H as <-. eapply m_all; eauto.
    - unfold step_spurious in H. destruct (nth_error (threads s) t) as [[l|l|k q l']|] eqn:ET; try discriminate. injection H as <-. eapply m_spurious; eauto.
  Qed.

  (** Invariants are proved on moves. *)
  Lemma invariant : forall (I : state -> Prop), (forall s b s', I s -> move s b s' -> I s') -> forall s0, I s0 -> forall s, reachable act s0 s -> I s.
  Proof.
    intros I HI s0 H0 s (cs & E). revert s0 H0 E. induction cs as [|c cs IH]; intros s0 H0 E; cbn [run] in E; [injection E as <-; exact H0|].
    destruct (step act s0 c) as [s1|] eqn:E1; [|discriminate]. apply (IH s1); auto. apply step_move in E1. eapply HI; eauto.
  Qed.

  Lemma set_queue_eq : forall (f : nat -> queue) q Q, set_queue f q Q q = Q.
  Proof. intros. unfold set_queue. rewrite Nat.eqb_refl. reflexivity. Qed.
  Lemma set_queue_neq : forall (f : nat -> queue) q Q r, r <> q -> set_queue f q Q r = f r.
  Proof. intros f q Q r H. unfold set_queue. apply Nat.eqb_neq in H. rewrite H. reflexivity. Qed.

  (* ---------------------------------------------------------------- order and capacity *)
  Definition queue_ok (max : option nat) (Q : queue) : Prop :=
    q_in Q = q_out Q ++ q_items Q /\ q_max Q = max /\ (forall m, max = Some m -> length (q_items Q) <= m) /\
    (q_closed Q = true -> (q_producers Q <= 0)%Z) /\ ((q_producers Q < 0)%Z -> q_closed Q = true).

  Lemma queue_push : forall m Q v, queue_ok m Q -> has_room Q = true -> queue_ok m (push_item Q v).
  Proof.
    intros m Q v (H1 & H2 & H3 & H4 & H5) HR. unfold has_room in HR. unfold push_item, queue_ok. cbn.
    split; [rewrite H1, <- app_assoc; reflexivity|]. split; [exact H2|]. split; [|auto]. intros k E. rewrite H2, E in HR. apply Nat.ltb_lt in HR. rewrite app_length. cbn. lia.
  Qed.
  Lemma queue_pop : forall m Q v r, queue_ok m Q -> q_items Q = v :: r -> queue_ok m (pop_item Q v r).
  Proof.
    intros m Q v r (H1 & H2 & H3 & H4 & H5) E. unfold pop_item, queue_ok. cbn. rewrite H1, E, <- app_assoc. split; [reflexivity|]. split; [exact H2|]. split; [|auto].
    intros k Ek. specialize (H3 k Ek). rewrite E in H3. cbn in H3. lia.
  Qed.
  Lemma queue_add : forall m Q, queue_ok m Q -> queue_ok m (add_producer Q).
  Proof.
    intros m Q (H1 & H2 & H3 & H4 & H5). unfold add_producer, queue_ok. cbn. split; auto. split; auto. split; auto.
    destruct (Z.ltb_spec 0 (q_producers Q + 1)); split; intros X; try discriminate; try lia. apply H5. lia.
  Qed.
  Lemma queue_remove : forall m Q, queue_ok m Q -> queue_ok m (remove_producer Q).
  Proof.
    intros m Q (H1 & H2 & H3 & H4 & H5). unfold remove_producer, queue_ok. cbn. split; auto. split; auto. split; auto.
    destruct (Z.leb_spec (q_producers Q - 1) 0); split; intros X; try lia; auto. specialize (H4 X). lia.
  Qed.

  Lemma queue_move : forall max s b s', (forall q, queue_ok (max q) (queues s q)) -> move s b s' -> forall q, queue_ok (max q) (queues s' q).
  Proof.
    intros max s b s' H M q0. destruct M; cbn [queues]; auto;
      (destruct (Nat.eq_dec q0 q) as [->|N0]; [rewrite set_queue_eq|rewrite set_queue_neq by auto; auto]).
    - apply queue_push; auto.
    - apply queue_pop; auto.
    - apply queue_add; auto.
    - apply queue_remove; auto.
  Qed.

  Theorem queues_ok : forall max ls s, reachable act (initial max ls) s -> forall q, queue_ok (max q) (queues s q).
  Proof.
    intros max ls s H. apply (invariant (fun s => forall q, queue_ok (max q) (queues s q))) with (s0 := initial max ls); auto.
    - intros s1 b s2 H1 M. eapply queue_move; eauto.
    - intros q. unfold initial, new_queue, queue_ok. cbn. repeat split; auto; try lia; try discriminate.
  Qed.

  Lemma threads_move : forall s b s', move s b s' -> length (threads s') = length (threads s).
  Proof. intros s b s' M. destruct M; cbn [threads]; rewrite ?map_length, ?upd_length; reflexivity. Qed.

  (* ---------------------------------------------------------------- no lost wake-up *)
  Definition at_pop (q : nat) (st : status) : bool := match st with Run l => match act l with Pop q' _ => q' =? q | _ => false end | _ => false end.
  Definition at_push (q : nat) (st : status) : bool := match st with Run l => match act l with Push q' _ _ => q' =? q | _ => false end | _ => false end.
  Definition noting (k : kind) (q : nat) (st : status) : bool := match st with Note k' q' _ => kind_eqb k' k && (q' =? q) | _ => false end.

  Definition wakeful (s : state) (q : nat) : Prop :=
    let c p := countb p (threads s) in
    (0 < c (asleep_pop act q) -> length (q_items (queues s q)) <= c (at_pop q) + c (noting OneConsumer q)) /\
    (0 < c (asleep_pop act q) -> q_closed (queues s q) = true -> 0 < c (noting AllConsumers q)) /\
    (0 < c (asleep_push act q) -> forall m, q_max (queues s q) = Some m ->
       m - length (q_items (queues s q)) <= c (at_push q) + c (noting OneProducer q)) /\
    (0 < c (asleep_push act q) -> q_max (queues s q) <> None).

  Ltac counts q ET :=
    let ts := match type of ET with nth_error ?x _ = Some _ => x end in
    pose proof (fun y => countb_upd (asleep_pop act q) ts _ _ y ET) as C1;
    pose proof (fun y => countb_upd (asleep_push act q) ts _ _ y ET) as C2;
    pose proof (fun y => countb_upd (at_pop q) ts _ _ y ET) as C3;
    pose proof (fun y => countb_upd (at_push q) ts _ _ y ET) as C4;
    pose proof (fun y => countb_upd (noting OneConsumer q) ts _ _ y ET) as C5;
    pose proof (fun y => countb_upd (noting OneProducer q) ts _ _ y ET) as C6;
    pose proof (fun y => countb_upd (noting AllConsumers q) ts _ _ y ET) as C7.
  Ltac at_status y C1 C2 C3 C4 C5 C6 C7 :=
    specialize (C1 y); specialize (C2 y); specialize (C3 y); specialize (C4 y); specialize (C5 y); specialize (C6 y); specialize (C7 y).

  Lemma wakeful_move : forall s b s', (forall q, wakeful s q) -> move s b s' -> forall q, wakeful s' q.
  Proof.
    intros s b s' W M q0. specialize (W q0). destruct W as (W1 & W2 & W3 & W4). unfold wakeful.
    destruct M as [t l l' ET EA|t l q v l' ET EA ER|t l q v l' ET EA ER|t l q k v r ET EA EI|t l q k ET EA EI EC|t l q k ET EA EI EC|t l q l' ET EA|t l q l' ET EA
      |t l u l' st ET EA EU EH|t k q l' w l ET NK EW EA|t k q l' ET NK EX|t q l' ET|t l ET]; cbn [queues threads]; cbv zeta.
    - counts q0 ET. at_status (Run l') C1 C2 C3 C4 C5 C6 C7.
      cbn [asleep_pop asleep_push at_pop at_push noting b2n] in *. rewrite EA in *. cbn [b2n] in *.
      split; [|split; [|split]]; intros.
      + specialize (W1 ltac:(lia)). lia.
      + specialize (W2 ltac:(lia) H0). lia.
      + specialize (W3 ltac:(lia) m H0). lia.
      + apply W4. lia.
    - counts q0 ET. at_status (Note OneConsumer q l') C1 C2 C3 C4 C5 C6 C7.
      cbn [asleep_pop asleep_push at_pop at_push noting b2n kind_eqb andb] in *. rewrite EA in *. cbn [b2n] in *.
      destruct (Nat.eq_dec q0 q) as [->|N0].
      + rewrite set_queue_eq. rewrite Nat.eqb_refl in *. cbn [b2n push_item q_items q_closed q_max] in *. rewrite app_length. cbn [length].
        split; [|split; [|split]]; intros.
        * specialize (W1 ltac:(lia)). lia.
        * specialize (W2 ltac:(lia) H0). lia.
        * specialize (W3 ltac:(lia) m H0). lia.
        * apply W4. lia.
      + rewrite set_queue_neq by auto. destruct (Nat.eqb_spec q q0); [congruence|]. cbn [b2n] in *.
        split; [|split; [|split]]; intros.
        * specialize (W1 ltac:(lia)). lia.
        * specialize (W2 ltac:(lia) H0). lia.
        * specialize (W3 ltac:(lia) m H0). lia.
        * apply W4. lia.
    - counts q0 ET. at_status (Sleep l) C1 C2 C3 C4 C5 C6 C7.
      cbn [asleep_pop asleep_push at_pop at_push noting b2n kind_eqb andb] in *. rewrite EA in *. cbn [b2n] in *.
      unfold has_room in ER. destruct (Nat.eqb_spec q q0) as [<-|N0]; cbn [b2n] in *.
      + split; [|split; [|split]]; intros.
        * specialize (W1 ltac:(lia)). lia.
        * specialize (W2 ltac:(lia) H0). lia.
        * rewrite H0 in ER. apply Nat.ltb_ge in ER. lia.
        * destruct (q_max (queues s q)); [discriminate|discriminate].
      + split; [|split; [|split]]; intros.
        * specialize (W1 ltac:(lia)). lia.
        * specialize (W2 ltac:(lia) H0). lia.
        * specialize (W3 ltac:(lia) m H0). lia.
        * apply W4. lia.
    - counts q0 ET. at_status (Note OneProducer q (k (Some v))) C1 C2 C3 C4 C5 C6 C7.
      cbn [asleep_pop asleep_push at_pop at_push noting b2n kind_eqb andb] in *. rewrite EA in *. cbn [b2n] in *.
      destruct (Nat.eq_dec q0 q) as [->|N0].
      + rewrite set_queue_eq. rewrite Nat.eqb_refl in *. cbn [b2n pop_item q_items q_closed q_max] in *. rewrite EI in *. cbn [length] in *.
        split; [|split; [|split]]; intros.
        * specialize (W1 ltac:(lia)). lia.
        * specialize (W2 ltac:(lia) H0). lia.
        * specialize (W3 ltac:(lia) m H0). lia.
        * apply W4. lia.
      + rewrite set_queue_neq by auto. destruct (Nat.eqb_spec q q0); [congruence|]. cbn [b2n] in *.
        split; [|split; [|split]]; intros.
        * specialize (W1 ltac:(lia)). lia.
        * specialize (W2 ltac:(lia) H0). lia.
        * specialize (W3 ltac:(lia) m H0). lia.
        * apply W4. lia.
    - counts q0 ET. at_status (Run (k None)) C1 C2 C3 C4 C5 C6 C7.
      cbn [asleep_pop asleep_push at_pop at_push noting b2n kind_eqb andb] in *. rewrite EA in *. cbn [b2n] in *.
      destruct (Nat.eqb_spec q q0) as [<-|N0]; cbn [b2n] in *.
      + split; [|split; [|split]]; intros.
        * rewrite EI. cbn. lia.
        * specialize (W2 ltac:(lia) H0). lia.
        * specialize (W3 ltac:(lia) m H0). lia.
        * apply W4. lia.
      + split; [|split; [|split]]; intros.
        * specialize (W1 ltac:(lia)). lia.
        * specialize (W2 ltac:(lia) H0). lia.
        * specialize (W3 ltac:(lia) m H0). lia.
        * apply W4. lia.
    - counts q0 ET. at_status (Sleep l) C1 C2 C3 C4 C5 C6 C7.
      cbn [asleep_pop asleep_push at_pop at_push noting b2n kind_eqb andb] in *. rewrite EA in *. cbn [b2n] in *.
      destruct (Nat.eqb_spec q q0) as [<-|N0]; cbn [b2n] in *.
      + split; [|split; [|split]]; intros.
        * rewrite EI. cbn. lia.
        * congruence.
        * specialize (W3 ltac:(lia) m H0). lia.
        * apply W4. lia.
      + split; [|split; [|split]]; intros.
        * specialize (W1 ltac:(lia)). lia.
        * specialize (W2 ltac:(lia) H0). lia.
        * specialize (W3 ltac:(lia) m H0). lia.
        * apply W4. lia.
    - counts q0 ET. at_status (Run l') C1 C2 C3 C4 C5 C6 C7.
      cbn [asleep_pop asleep_push at_pop at_push noting b2n kind_eqb andb] in *. rewrite EA in *. cbn [b2n] in *.
      destruct (Nat.eq_dec q0 q) as [->|N0].
      + rewrite set_queue_eq. cbn [add_producer q_items q_closed q_max].
        split; [|split; [|split]]; intros.
        * specialize (W1 ltac:(lia)). lia.
        * destruct (0 <? q_producers (queues s q) + 1)%Z; [discriminate|]. specialize (W2 ltac:(lia) H0). lia.
        * specialize (W3 ltac:(lia) m H0). lia.
        * apply W4. lia.
      + rewrite set_queue_neq by auto.
        split; [|split; [|split]]; intros.
        * specialize (W1 ltac:(lia)). lia.
        * specialize (W2 ltac:(lia) H0). lia.
        * specialize (W3 ltac:(lia) m H0). lia.
        * apply W4. lia.
    - counts q0 ET. at_status (Note AllConsumers q l') C1 C2 C3 C4 C5 C6 C7.
      cbn [asleep_pop asleep_push at_pop at_push noting b2n kind_eqb andb] in *. rewrite EA in *. cbn [b2n] in *.
      destruct (Nat.eq_dec q0 q) as [->|N0].
      + rewrite set_queue_eq. rewrite Nat.eqb_refl in *. cbn [b2n remove_producer q_items q_closed q_max] in *.
        split; [|split; [|split]]; intros.
        * specialize (W1 ltac:(lia)). lia.
        * lia.
        * specialize (W3 ltac:(lia) m H0). lia.
        * apply W4. lia.
      + rewrite set_queue_neq by auto. destruct (Nat.eqb_spec q q0); [congruence|]. cbn [b2n] in *.
        split; [|split; [|split]]; intros.
        * specialize (W1 ltac:(lia)). lia.
        * specialize (W2 ltac:(lia) H0). lia.
        * specialize (W3 ltac:(lia) m H0). lia.
        * apply W4. lia.
    - counts q0 ET. at_status (Run l') C1 C2 C3 C4 C5 C6 C7.
      cbn [asleep_pop asleep_push at_pop at_push noting b2n] in *. rewrite EA in *. cbn [b2n] in *.
      split; [|split; [|split]]; intros.
      + specialize (W1 ltac:(lia)). lia.
      + specialize (W2 ltac:(lia) H0). lia.
      + specialize (W3 ltac:(lia) m H0). lia.
      + apply W4. lia.
    - pose proof ET as ET'. counts q0 ET. at_status (Run l') C1 C2 C3 C4 C5 C6 C7.
      pose proof (fun y => countb_upd (asleep_pop act q0) _ _ _ y EW) as D1. pose proof (fun y => countb_upd (asleep_push act q0) _ _ _ y EW) as D2.
      pose proof (fun y => countb_upd (at_pop q0) _ _ _ y EW) as D3. pose proof (fun y => countb_upd (at_push q0) _ _ _ y EW) as D4.
      pose proof (fun y => countb_upd (noting OneConsumer q0) _ _ _ y EW) as D5. pose proof (fun y => countb_upd (noting OneProducer q0) _ _ _ y EW) as D6.
      pose proof (fun y => countb_upd (noting AllConsumers q0) _ _ _ y EW) as D7. at_status (Run l) D1 D2 D3 D4 D5 D6 D7.
      cbn [asleep_pop asleep_push at_pop at_push noting b2n kind_eqb andb] in *.
      set (x1 := match act l' with Pop q' _ => q' =? q0 | _ => false end) in *. set (x2 := match act l' with Push q' _ _ => q' =? q0 | _ => false end) in *.
      destruct k; cbn [asleep asleep_pop asleep_push kind_eqb andb b2n] in *; [| |congruence].
      + destruct (act l) as [| | |q' k'| | |]; try discriminate. apply Nat.eqb_eq in EA. subst q'. cbn [b2n] in *.
        destruct (Nat.eqb_spec q q0) as [<-|N0]; cbn [b2n] in *; (split; [|split; [|split]]; intros;
          [specialize (W1 ltac:(lia)); lia|specialize (W2 ltac:(lia) H0); lia|specialize (W3 ltac:(lia) m H0); lia|apply W4; lia]).
      + destruct (act l) as [| |q' v' k'| | | |]; try discriminate. apply Nat.eqb_eq in EA. subst q'. cbn [b2n] in *.
        destruct (Nat.eqb_spec q q0) as [<-|N0]; cbn [b2n] in *; (split; [|split; [|split]]; intros;
          [specialize (W1 ltac:(lia)); lia|specialize (W2 ltac:(lia) H0); lia|specialize (W3 ltac:(lia) m H0); lia|apply W4; lia]).
    - counts q0 ET. at_status (Run l') C1 C2 C3 C4 C5 C6 C7.
      assert (Z : q = q0 -> countb (asleep act k q0) (upd (threads s) t (Run l')) = 0).
      { intros ->. apply countb_zero. intros x Hx. destruct (asleep act k q0 x) eqn:E; [|reflexivity].
        assert (existsb (asleep act k q0) (upd (threads s) t (Run l')) = true) by (apply existsb_exists; eauto). congruence. }
      cbn [asleep_pop asleep_push at_pop at_push noting b2n kind_eqb andb] in *.
      set (x1 := match act l' with Pop q' _ => q' =? q0 | _ => false end) in *. set (x2 := match act l' with Push q' _ _ => q' =? q0 | _ => false end) in *.
      destruct (Nat.eqb_spec q q0) as [->|N0]; [specialize (Z eq_refl)|clear Z];
      (destruct k; [try change (asleep act OneConsumer q0) with (asleep_pop act q0) in Z|try change (asleep act OneProducer q0) with (asleep_push act q0) in Z|congruence]; cbn [kind_eqb andb b2n] in *; (split; [|split; [|split]]; intros;
        [try lia; specialize (W1 ltac:(lia)); lia|try lia; specialize (W2 ltac:(lia) H0); lia|try lia; specialize (W3 ltac:(lia) m H0); lia|apply W4; lia])).
    - counts q0 ET. at_status (Run l') C1 C2 C3 C4 C5 C6 C7.
      set (ts := upd (threads s) t (Run l')) in *. set (f := fun st => if asleep_pop act q st then wake st else st).
      assert (F1 : countb (asleep_push act q0) (map f ts) = countb (asleep_push act q0) ts).
      { apply countb_map_same. intros [x|x|k1 q1 x]; unfold f; cbn; auto. destruct (act x) eqn:EX; cbn; rewrite ?EX; auto. destruct (_ =? q); cbn; rewrite ?EX; auto. }
      assert (F2 : forall k, countb (noting k q0) (map f ts) = countb (noting k q0) ts).
      { intros k. apply countb_map_same. intros [x|x|k1 q1 x]; unfold f; cbn; auto. destruct (act x); cbn; auto. destruct (_ =? q); cbn; auto. }
      assert (F3 : countb (at_pop q0) ts <= countb (at_pop q0) (map f ts)).
      { apply countb_map_le. intros [x|x|k1 q1 x]; unfold f; cbn; auto; discriminate. }
      assert (F4 : countb (at_push q0) ts <= countb (at_push q0) (map f ts)).
      { apply countb_map_le. intros [x|x|k1 q1 x]; unfold f; cbn; auto; discriminate. }
      assert (F5 : q = q0 -> countb (asleep_pop act q0) (map f ts) = 0).
      { intros ->. apply countb_zero. intros y Hy. apply in_map_iff in Hy. destruct Hy as (x & <- & _). unfold f.
        destruct (asleep_pop act q0 x) eqn:E; [destruct x; cbn in *; auto; discriminate|exact E]. }
      assert (F6 : q <> q0 -> countb (asleep_pop act q0) (map f ts) = countb (asleep_pop act q0) ts).
      { intros N0. apply countb_map_same. intros x. unfold f. destruct (asleep_pop act q x) eqn:E; [|reflexivity].
        destruct x as [x|x|k1 q1 x]; cbn in *; auto. destruct (act x) as [| | |q2 k2| | |]; try discriminate. apply Nat.eqb_eq in E. subst q2.
        symmetry. apply Nat.eqb_neq. exact N0. }
      rewrite F1, !F2. cbn [asleep_pop asleep_push at_pop at_push noting b2n kind_eqb andb] in *.
      set (x1 := match act l' with Pop q' _ => q' =? q0 | _ => false end) in *. set (x2 := match act l' with Push q' _ _ => q' =? q0 | _ => false end) in *.
      destruct (Nat.eqb_spec q q0) as [E0|N0]; cbn [b2n] in *.
      + specialize (F5 E0). split; [|split; [|split]]; intros; [lia|lia|specialize (W3 ltac:(lia) m H0); lia|apply W4; lia].
      + specialize (F6 N0). split; [|split; [|split]]; intros; [specialize (W1 ltac:(lia)); lia|specialize (W2 ltac:(lia) H0); lia|specialize (W3 ltac:(lia) m H0); lia|apply W4; lia].
    - counts q0 ET. at_status (Run l) C1 C2 C3 C4 C5 C6 C7.
      cbn [asleep_pop asleep_push at_pop at_push noting b2n] in *.
      set (x1 := match act l with Pop q' _ => q' =? q0 | _ => false end) in *. set (x2 := match act l with Push q' _ _ => q' =? q0 | _ => false end) in *.
      split; [|split; [|split]]; intros; [specialize (W1 ltac:(lia)); lia|specialize (W2 ltac:(lia) H0); lia|specialize (W3 ltac:(lia) m H0); lia|apply W4; lia].
  Qed.

  Theorem always_wakeful : forall max ls s, reachable act (initial max ls) s -> forall q, wakeful s q.
  Proof.
    intros max ls s H. apply (invariant (fun s => forall q, wakeful s q)) with (s0 := initial max ls); auto.
    - intros s1 b s2 H1 M. eapply wakeful_move; eauto.
    - intros q. assert (Z : forall p : status -> bool, (forall l, p (Run l) = false) -> countb p (map Run ls) = 0).
      { intros p Hp. apply countb_zero. intros x Hx. apply in_map_iff in Hx. destruct Hx as (l & <- & _). apply Hp. }
      unfold wakeful, initial. cbn [threads queues]. cbv zeta. rewrite (Z (asleep_pop act q)), (Z (asleep_push act q)) by reflexivity.
      split; [lia|]. split; [lia|]. split; lia.
  Qed.

  (** A state in which nobody can go on: nobody is about to do or notify anything. *)
  Lemma stuck_status : forall s, stuck act s -> forall t st, nth_error (threads s) t = Some st ->
    (exists l, st = Run l /\ act l = Halt) \/ (exists l u l', st = Run l /\ act l = Join u l' /\ forall x, nth_error (threads s) u = Some x -> halted act x = false) \/
    (exists l, st = Sleep l).
  Proof.
    intros s H t st ET. destruct st as [l|l|k q l'].
    - specialize (H t 0). unfold step_thread in H. rewrite ET in H. destruct (act l) as [|l'|q v l'|q k|q l'|q l'|u l'] eqn:EA; try discriminate.
      + left. eauto.
      + destruct (has_room (queues s q)); discriminate.
      + destruct (q_items (queues s q)); [destruct (q_closed (queues s q))|]; discriminate.
      + right. left. exists l, u, l'. split; [reflexivity|]. split; [exact EA|]. intros x Ex. rewrite Ex in H. destruct (halted act x); [discriminate|reflexivity].
    - right. right. eauto.
    - exfalso. assert (G : k <> AllConsumers -> False).
      { intros Nk. destruct (existsb (asleep act k q) (upd (threads s) t (Run l'))) eqn:EX.
        - apply existsb_exists in EX. destruct EX as (x & Hx & Ax). apply In_nth_error in Hx. destruct Hx as (w & Hw).
          specialize (H t w). unfold step_thread in H. rewrite ET in H. cbv zeta in H.
          assert (EX : existsb (asleep act k q) (upd (threads s) t (Run l')) = true) by (apply existsb_exists; exists x; split; [eapply nth_error_In; eauto|auto]).
          rewrite EX, Hw, Ax in H. destruct k; [discriminate|discriminate|congruence].
        - specialize (H t 0). unfold step_thread in H. rewrite ET in H. cbv zeta in H. rewrite EX in H. destruct k; [discriminate|discriminate|congruence]. }
      destruct k; [apply G; discriminate|apply G; discriminate|]. specialize (H t 0). unfold step_thread in H. rewrite ET in H. discriminate.
  Qed.

  (** Nobody sleeps without reason: in a stuck state, a consumer waits only on an empty open queue,
      a producer only on a full one. *)
  Theorem stuck_sleepers : forall max ls s, reachable act (initial max ls) s -> stuck act s -> forall st, In st (threads s) ->
    (forall q, waits_pop act q st -> q_items (queues s q) = [] /\ q_closed (queues s q) = false) /\
    (forall q, waits_push act q st -> exists m, max q = Some m /\ m <= length (q_items (queues s q))).
  Proof.
    intros max ls s HR HS st Hst. pose proof (always_wakeful max ls s HR) as W. pose proof (queues_ok max ls s HR) as QO.
    assert (NZ : forall p : status -> bool, (forall l, act l = Halt -> p (Run l) = false) -> (forall l u l', act l = Join u l' -> p (Run l) = false) ->
      (forall l, p (Sleep l) = false) -> countb p (threads s) = 0).
    { intros p P1 P2 P3. apply countb_zero. intros x Hx. apply In_nth_error in Hx. destruct Hx as (t & Hx).
      destruct (stuck_status s HS t x Hx) as [(l & -> & E)|[(l & u & l' & -> & E & _)|(l & ->)]]; eauto. }
    split.
    - intros q (l & k & -> & EA). destruct (W q) as (W1 & W2 & _). cbv zeta in W1, W2.
      assert (P : 0 < countb (asleep_pop act q) (threads s)).
      { apply countb_pos. exists (Sleep l). split; auto. cbn. rewrite EA. apply Nat.eqb_refl. }
      specialize (W1 P). specialize (W2 P).
      rewrite (NZ (at_pop q)), (NZ (noting OneConsumer q)) in W1 by (intros; cbn; try rewrite H; reflexivity).
      rewrite (NZ (noting AllConsumers q)) in W2 by (intros; cbn; try rewrite H; reflexivity).
      split; [destruct (q_items (queues s q)); [reflexivity|cbn in W1; lia]|]. destruct (q_closed (queues s q)); [specialize (W2 eq_refl); lia|reflexivity].
    - intros q (l & v & l' & -> & EA). destruct (W q) as (_ & _ & W3 & W4). cbv zeta in W3, W4.
      assert (P : 0 < countb (asleep_push act q) (threads s)).
      { apply countb_pos. exists (Sleep l). split; auto. cbn. rewrite EA. apply Nat.eqb_refl. }
      specialize (W3 P). specialize (W4 P). destruct (QO q) as (_ & QM & _). rewrite QM in *. destruct (max q) as [m|]; [|congruence]. exists m. split; [reflexivity|].
      specialize (W3 m eq_refl). rewrite (NZ (at_push q)), (NZ (noting OneProducer q)) in W3 by (intros; cbn; try rewrite H; reflexivity). lia.
  Qed.

  (** Only a thread inside [push] or [pop] sleeps. *)
  Definition sleeping_ok (st : status) : Prop :=
    match st with Sleep l => match act l with Push _ _ _ | Pop _ _ => True | _ => False end | _ => True end.
  Lemma upd_cases : forall {A} (l : list A) t x y, In y (upd l t x) -> y = x \/ In y l.
  Proof. intros A. induction l as [|a l IH]; intros [|t] x y H; cbn in *; auto; [destruct H; auto|]. destruct H as [H|H]; auto. apply IH in H. destruct H; auto. Qed.
  Lemma sleepers_ok : forall max ls s, reachable act (initial max ls) s -> forall st, In st (threads s) -> sleeping_ok st.
  Proof.
    intros max ls s H. apply (invariant (fun s => forall st, In st (threads s) -> sleeping_ok st)) with (s0 := initial max ls); auto.
    - intros s1 b s2 H1 M st Hst.
      destruct M as [t l l' ET EA|t l q v l' ET EA ER|t l q v l' ET EA ER|t l q k v r ET EA EI|t l q k ET EA EI EC|t l q k ET EA EI EC|t l q l' ET EA|t l q l' ET EA
        |t l u l' st' ET EA EU EH|t k q l' w l ET NK EW EA|t k q l' ET NK EX|t q l' ET|t l ET]; cbn [threads] in Hst.
      all: try (apply upd_cases in Hst; destruct Hst as [->|Hst]; [cbn; try exact I; rewrite EA; exact I|auto; fail]).
      + apply upd_cases in Hst. destruct Hst as [->|Hst]; [exact I|]. apply upd_cases in Hst. destruct Hst as [->|Hst]; [exact I|auto].
      + apply in_map_iff in Hst. destruct Hst as (x & <- & Hx). apply upd_cases in Hx.
        assert (sleeping_ok x) by (destruct Hx as [->|Hx]; [exact I|auto]). destruct (asleep_pop act q x); auto. destruct x; cbn; auto.
    - intros st Hst. unfold initial in Hst. cbn in Hst. apply in_map_iff in Hst. destruct Hst as (l & <- & _). exact I.
  Qed.

  (* ---------------------------------------------------------------- termination by potentials *)
  Variable rho : L -> nat.               (* work left in a local state *)
  Variable iota : nat -> nat.            (* work an item of queue [q] can cause *)
  Variable N NQ : nat.                   (* threads, queues *)
  Definition pays (l : L) : Prop :=
    match act l with
    | Halt => True
    | Local l' => rho l' < rho l
    | Push q v l' => q < NQ /\ rho l' + iota q + 3 <= rho l
    | Pop q k => q < NQ /\ (forall v, rho (k (Some v)) + 3 <= rho l + iota q) /\ rho (k None) < rho l
    | AddProducer q l' => rho l' < rho l
    | RemoveProducer q l' => rho l' + N + 2 <= rho l
    | Join _ l' => rho l' < rho l
    end.
  Hypothesis all_pay : forall l, pays l.

  Definition weight (st : status) : nat :=
    match st with Run l => rho l + 1 | Sleep l => rho l | Note AllConsumers _ l => rho l + 2 + N | Note _ _ l => rho l + 3 end.
  Definition potential (s : state) : nat :=
    list_sum (map weight (threads s)) + list_sum (map (fun q => length (q_items (queues s q)) * iota q) (seq 0 NQ)).

  Lemma sum_upd : forall {A} (w : A -> nat) l t x y, nth_error l t = Some x -> list_sum (map w (upd l t y)) + w x = list_sum (map w l) + w y.
  Proof.
    intros A w. induction l as [|a l IH]; intros [|t] x y H; try discriminate; cbn [upd nth_error] in *; cbn [map]; cbn [list_sum fold_right]; unfold list_sum in *.
    - injection H as ->. cbn. lia.
    - specialize (IH t x y H). cbn [fold_right]. lia.
  Qed.
  Lemma sum_wake : forall q ts, list_sum (map weight (map (fun st => if asleep_pop act q st then wake st else st) ts)) <= list_sum (map weight ts) + length ts.
  Proof.
    intros q. unfold list_sum. induction ts as [|st ts IH]; [reflexivity|]. cbn [map fold_right length].
    assert (weight (if asleep_pop act q st then wake st else st) <= weight st + 1) by (destruct (asleep_pop act q st), st; cbn; lia). lia.
  Qed.
  Lemma sum_queues : forall (f g : nat -> queue) q k n, (forall r, r <> q -> f r = g r) ->
    list_sum (map (fun r => length (q_items (f r)) * iota r) (seq k n)) + (if (k <=? q) && (q <? k + n) then length (q_items (g q)) * iota q else 0) =
    list_sum (map (fun r => length (q_items (g r)) * iota r) (seq k n)) + (if (k <=? q) && (q <? k + n) then length (q_items (f q)) * iota q else 0).
  Proof.
    intros f g q k n H. unfold list_sum. revert k. induction n as [|n IH]; intros k.
    - replace (k + 0) with k by lia. cbn [seq map fold_right]. destruct (Nat.leb_spec k q), (Nat.ltb_spec q k); cbn [andb]; lia.
    - cbn [seq map fold_right]. specialize (IH (S k)). replace (S k + n) with (k + S n) in IH by lia.
      destruct (Nat.eq_dec k q) as [->|Nk].
      + replace (S q <=? q) with false in IH by (symmetry; apply Nat.leb_gt; lia). rewrite Nat.leb_refl. replace (q <? q + S n) with true by (symmetry; apply Nat.ltb_lt; lia).
        cbn [andb] in *. lia.
      + rewrite (H k Nk). destruct (Nat.leb_spec k q), (Nat.leb_spec (S k) q); try lia; cbn [andb] in *; lia.
  Qed.

  Lemma potential_move : forall s b s', length (threads s) = N -> move s b s' -> potential s' + (if b then 0 else 1) <= potential s + (if b then 1 else 0).
  Proof.
    intros s b s' HN M. unfold potential.
    assert (P : forall l, pays l) by exact all_pay.
    destruct M as [t l l' ET EA|t l q v l' ET EA ER|t l q v l' ET EA ER|t l q k v r ET EA EI|t l q k ET EA EI EC|t l q k ET EA EI EC|t l q l' ET EA|t l q l' ET EA
      |t l u l' st ET EA EU EH|t k q l' w l ET NK EW EA|t k q l' ET NK EX|t q l' ET|t l ET]; cbn [queues threads];
      try (specialize (P l); unfold pays in P; rewrite EA in P);
      pose proof (fun y => sum_upd weight _ _ _ y ET) as S.
    - specialize (S (Run l')). cbn [weight] in S. lia.
    - specialize (S (Note OneConsumer q l')). cbn [weight] in S. destruct P as (Pq & P).
      pose proof (sum_queues (set_queue (queues s) q (push_item (queues s q) v)) (queues s) q 0 NQ ltac:(intros; apply set_queue_neq; auto)) as Q.
      replace (q <? 0 + NQ) with true in Q by (symmetry; apply Nat.ltb_lt; lia). cbn [Nat.leb andb] in Q. rewrite set_queue_eq in Q.
      cbn [push_item q_items] in Q. rewrite app_length in Q. cbn [length] in Q. lia.
    - specialize (S (Sleep l)). cbn [weight] in S. lia.
    - specialize (S (Note OneProducer q (k (Some v)))). cbn [weight] in S. destruct P as (Pq & P & _). specialize (P v).
      pose proof (sum_queues (set_queue (queues s) q (pop_item (queues s q) v r)) (queues s) q 0 NQ ltac:(intros; apply set_queue_neq; auto)) as Q.
      replace (q <? 0 + NQ) with true in Q by (symmetry; apply Nat.ltb_lt; lia). cbn [Nat.leb andb] in Q. rewrite set_queue_eq in Q.
      cbn [pop_item q_items] in Q. rewrite EI in Q. cbn [length] in Q. lia.
    - specialize (S (Run (k None))). cbn [weight] in S. lia.
    - specialize (S (Sleep l)). cbn [weight] in S. lia.
    - specialize (S (Run l')). cbn [weight] in S.
      rewrite (map_ext _ (fun r => length (q_items (queues s r)) * iota r)); [lia|]. intros r. unfold set_queue. destruct (Nat.eqb_spec r q) as [->|]; reflexivity.
    - specialize (S (Note AllConsumers q l')). cbn [weight] in S.
      rewrite (map_ext _ (fun r => length (q_items (queues s r)) * iota r)); [lia|]. intros r. unfold set_queue. destruct (Nat.eqb_spec r q) as [->|]; reflexivity.
    - specialize (S (Run l')). cbn [weight] in S. lia.
    - specialize (S (Run l')). pose proof (sum_upd weight _ _ _ (Run l) EW) as S'. destruct k; cbn [weight] in *; try congruence; lia.
    - specialize (S (Run l')). destruct k; cbn [weight] in *; try congruence; lia.
    - specialize (S (Run l')). cbn [weight] in S. pose proof (sum_wake q (upd (threads s) t (Run l'))) as W. rewrite upd_length in W. lia.
    - specialize (S (Run l)). cbn [weight] in S. lia.
  Qed.

  (** Every schedule is bounded: at most [potential s0] steps, plus two for each spurious wake-up. *)
  Theorem schedule_bound : forall cs s0 s, length (threads s0) = N -> run act s0 cs = Some s -> length cs + potential s <= potential s0 + 2 * spurious cs.
  Proof.
    induction cs as [|c cs IH]; intros s0 s HN E; cbn [run] in E; [injection E as <-; cbn; lia|].
    destruct (step act s0 c) as [s1|] eqn:E1; [|discriminate]. pose proof (step_move _ _ _ E1) as M.
    pose proof (threads_move _ _ _ M) as HL. pose proof (potential_move _ _ _ HN M) as D.
    specialize (IH s1 s ltac:(congruence) E). unfold spurious in *. rewrite countb_cons. cbn [length]. destruct c; cbn [is_spurious b2n] in *; lia.
  Qed.
End Generic.

(* ---------------------------------------------------------------- the history is what happened *)
Section History.
  Variable V L : Type.
  Variable act : L -> instr V L.
  Notation state := (state V L).

  Lemma step_event : forall (s : state) c s', step act s c = Some s' -> forall q,
    q_in (queues s' q) = q_in (queues s q) ++ pushed q (event_of act s c) /\
    q_out (queues s' q) = q_out (queues s q) ++ popped q (event_of act s c) /\
    q_producers (queues s' q) = (q_producers (queues s q) + Z.of_nat (added q (event_of act s c)) - Z.of_nat (removed q (event_of act s c)))%Z.
  Proof.
    intros s [t w|t] s' H q0; cbn [step event_of] in *.
    - unfold step_thread in H. destruct (nth_error (threads s) t) as [[l|l|k q l']|] eqn:ET; try discriminate.
      + destruct (act l) as [|l'|q v l'|q k|q l'|q l'|u l'] eqn:EA; try discriminate.
        * injection H as <-. cbn. rewrite !app_nil_r. repeat split; lia.
        * unfold has_room in H. destruct (q_max (queues s q)) as [m|] eqn:EM; [destruct (Nat.ltb_spec (length (q_items (queues s q))) m), (Nat.leb_spec m (length (q_items (queues s q)))); try lia|];
            injection H as <-; cbn; unfold set_queue; rewrite ?app_nil_r; rewrite ?(Nat.eqb_sym q0 q); try destruct (Nat.eqb_spec q q0) as [->|]; cbn; rewrite ?app_nil_r; repeat split; lia.
        * destruct (q_items (queues s q)) as [|v r] eqn:EI; [destruct (q_closed (queues s q)) eqn:EC|]; injection H as <-; cbn; unfold set_queue; rewrite ?app_nil_r;
            rewrite ?(Nat.eqb_sym q0 q); try destruct (Nat.eqb_spec q q0) as [->|]; cbn; rewrite ?app_nil_r; repeat split; lia.
        * injection H as <-. unfold added, removed, countb. cbn. unfold set_queue. rewrite ?app_nil_r, (Nat.eqb_sym q0 q). destruct (Nat.eqb_spec q q0) as [->|]; cbn; repeat split; lia.
        * injection H as <-. unfold added, removed, countb. cbn. unfold set_queue. rewrite ?app_nil_r, (Nat.eqb_sym q0 q). destruct (Nat.eqb_spec q q0) as [->|]; cbn; repeat split; lia.
        * destruct (nth_error (threads s) u) as [st|]; [|discriminate]. destruct (halted act st); [|discriminate]. injection H as <-. cbn. rewrite !app_nil_r. repeat split; lia.
      + assert (Q : queues s' = queues s).
        { destruct k; cbv zeta in H.
          - destruct (existsb _ _); [destruct (nth_error _ w) as [st|]; [|discriminate]; destruct (asleep _ _ _ _); [|discriminate]|]; injection H as <-; reflexivity.
          - destruct (existsb _ _); [destruct (nth_error _ w) as [st|]; [|discriminate]; destruct (asleep _ _ _ _); [|discriminate]|]; injection H as <-; reflexivity.
          - injection H as <-. reflexivity. }
        rewrite Q. cbn. rewrite !app_nil_r. repeat split; lia.
    - unfold step_spurious in H. destruct (nth_error (threads s) t) as [[l|l|k q l']|] eqn:ET; try discriminate. injection H as <-. cbn. rewrite !app_nil_r. repeat split; lia.
  Qed.

  Lemma countb_app2 : forall {A} (p : A -> bool) a b, countb p (a ++ b) = countb p a + countb p b.
  Proof. intros. unfold countb. rewrite filter_app, app_length. reflexivity. Qed.
  Lemma run_trace : forall cs (s0 s : state), run act s0 cs = Some s -> forall q,
    q_in (queues s q) = q_in (queues s0 q) ++ pushed q (trace act s0 cs) /\
    q_out (queues s q) = q_out (queues s0 q) ++ popped q (trace act s0 cs) /\
    q_producers (queues s q) = (q_producers (queues s0 q) + Z.of_nat (added q (trace act s0 cs)) - Z.of_nat (removed q (trace act s0 cs)))%Z.
  Proof.
    induction cs as [|c cs IH]; intros s0 s E q; cbn [run trace] in *.
    - injection E as <-. cbn. rewrite !app_nil_r. repeat split; lia.
    - destruct (step act s0 c) as [s1|] eqn:E1; [|discriminate]. destruct (IH s1 s E q) as (A & B & C). destruct (step_event s0 c s1 E1 q) as (D & F & G).
      rewrite A, B, C, D, F, G. unfold pushed, popped, added, removed. rewrite !flat_map_app, !app_assoc, !countb_app2. repeat split; lia.
  Qed.

  Theorem queue_spec : forall max ls cs (s : state), run act (initial max ls) cs = Some s -> forall q,
    let tr := trace act (initial max ls) cs in
    pushed q tr = popped q tr ++ q_items (queues s q) /\
    (forall m, max q = Some m -> length (q_items (queues s q)) <= m) /\
    (q_closed (queues s q) = true -> added q tr <= removed q tr).
  Proof.
    intros max ls cs s E q tr. destruct (run_trace cs _ s E q) as (A & B & C). fold tr in A, B, C. cbn in A, B, C.
    destruct (queues_ok V L act max ls s ltac:(exists cs; exact E) q) as (H1 & H2 & H3 & H4 & H5).
    split; [rewrite <- A, <- B; exact H1|]. split; [exact H3|]. intros HC. specialize (H4 HC). lia.
  Qed.

  Theorem told_spec : forall max ls cs (s : state) c s', run act (initial max ls) cs = Some s -> step act s c = Some s' -> forall q,
    In (Told q) (event_of act s c) ->
    let tr := trace act (initial max ls) cs in pushed q tr = popped q tr /\ added q tr <= removed q tr.
  Proof.
    intros max ls cs s c s' E E1 q HT tr. destruct (queue_spec max ls cs s E q) as (A & B & C). fold tr in A, B, C.
    destruct c as [t w|t]; [|destruct HT]. cbn [event_of] in HT.
    destruct (nth_error (threads s) t) as [[l|l|k q1 l']|]; try destruct HT.
    destruct (act l) as [|l'|q1 v l'|q1 k|q1 l'|q1 l'|u l'] eqn:EA; try (destruct HT; fail); try (destruct HT as [HT|[]]; discriminate).
    - destruct (q_max (queues s q1)); [destruct (_ <=? _)|]; try destruct HT as [HT|[]]; try discriminate; destruct HT.
    - destruct (q_items (queues s q1)) as [|v r] eqn:EI; [destruct (q_closed (queues s q1)) eqn:EC|]; try (destruct HT; fail); destruct HT as [HT|[]]; try discriminate.
      injection HT as ->. rewrite EI, app_nil_r in A. auto.
  Qed.
End History.
