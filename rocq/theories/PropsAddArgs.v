(* C84: lists of parameters are expanded. *)
From Verif Require Import Base AddArgs.

(** The parameters in reading order. *)
Fixpoint flat {P} (a : @arg P) : list (@arg P) :=
  match a with ASeq l => flat_map flat l | _ => [a] end.

Section Proofs.
  Context {S P : Type}.
  Variable cpp_add : S -> P -> S * option nat.
  Variable is_shape : P -> bool.
  Notation add := (add cpp_add is_shape).
  Notation add_arg := (add_arg cpp_add is_shape).

  Lemma arg_rect2 : forall (Q : @arg P -> Prop), Q ANone -> (forall p, Q (AParam p)) -> Q AForeign ->
    (forall l, Forall Q l -> Q (ASeq l)) -> forall a, Q a.
  Proof.
    intros Q H1 H2 H3 H4. fix IH 1. intros [|p|l|]; [exact H1|apply H2| |exact H3]. apply H4. induction l as [|x l IHl]; constructor; [apply IH|exact IHl].
  Qed.
  Lemma add_arg_seq : forall m l, add_arg m (ASeq l) = add m l.
  Proof.
    intros m l. cbn [AddArgs.add_arg].
    assert (E : forall l m, (fix add_args (m : pymodel) (l : list (@arg P)) : pymodel * option exc :=
          match l with
          | [] => (m, None)
          | x :: t => match add_arg m x with (m', None) => add_args m' t | r => r end
          end) m l = add m l).
    { induction l0 as [|x t IH]; intro m0; cbn; [reflexivity|]. destruct (add_arg m0 x) as [m' [e|]]; [reflexivity|apply IH]. }
    rewrite E. destruct (add m l) as [m' [[| |]|]]; reflexivity.
  Qed.
  Lemma add_app : forall l m l', add m (l ++ l') = match add m l with (m', None) => add m' l' | r => r end.
  Proof.
    induction l as [|x l IH]; intros m l'; cbn; [reflexivity|]. destruct (add_arg m x) as [m' [e|]]; [reflexivity|apply IH].
  Qed.
  Lemma add_one : forall m a, add m [a] = add_arg m a.
  Proof. intros. cbn. destruct (add_arg m a) as [m' [e|]]; reflexivity. Qed.
  Lemma add_flat_arg : forall a m, add m (flat a) = add_arg m a.
  Proof.
    induction a as [|p| |l HL] using arg_rect2; intro m; try apply add_one.
    rewrite add_arg_seq. cbn [flat]. revert m. induction HL as [|x l HX HL IH]; intro m; cbn [flat_map]; [reflexivity|].
    rewrite add_app, HX. cbn. destruct (add_arg m x) as [m' [e|]]; [reflexivity|apply IH].
  Qed.
End Proofs.

(** Arguments nested to any depth do the same as the flat list, also when something fails on the way: the same
    error, with the same parameters already added. *)
Theorem C84 : forall S P (cpp_add : S -> P -> S * option nat) is_shape m args,
  add cpp_add is_shape m args = add cpp_add is_shape m (flat_map flat args).
Proof.
  intros S P cpp_add is_shape m args. revert m. induction args as [|a args IH]; intro m; cbn [flat_map]; [reflexivity|].
  rewrite add_app, add_flat_arg. cbn. destruct (add_arg cpp_add is_shape m a) as [m' [e|]]; [reflexivity|apply IH].
Qed.
Corollary C84_nested : forall S P (cpp_add : S -> P -> S * option nat) is_shape m p0 l,
  add cpp_add is_shape m [p0; ASeq l] = add cpp_add is_shape m (p0 :: l).
Proof.
  intros. cbn [add]. destruct (add_arg cpp_add is_shape m p0) as [m' [e|]]; [reflexivity|]. rewrite add_arg_seq. destruct (add cpp_add is_shape m' l) as [m'' [e|]]; reflexivity.
Qed.

(** When all parameters are accepted: C++ gets them in reading order, each once, and [shape] is the last shape. *)
Fixpoint params {P} (l : list (@arg P)) : list P := match l with [] => [] | AParam p :: t => p :: params t | _ :: t => params t end.
Definition last_shape {P} (is_shape : P -> bool) (old : option P) (l : list P) : option P :=
  fold_left (fun o p => if is_shape p then Some p else o) l old.
Theorem C84_accepted : forall S P (cpp_add : S -> P -> S * option nat) is_shape m m' args,
  add cpp_add is_shape m args = (m', None) ->
  let ps := params (flat_map flat args) in
  length ps = length (flat_map flat args) /\
  pm_state m' = fold_left (fun s p => fst (cpp_add s p)) ps (pm_state m) /\ pm_shape m' = last_shape is_shape (pm_shape m) ps.
Proof.
  intros S P cpp_add is_shape m m' args. rewrite C84.
  assert (FL : forall a, In a (flat_map flat args) -> match a with ASeq _ => False | _ => True end).
  { intros a H. apply in_flat_map in H. destruct H as [b [_ H]]. revert a H. induction b as [|p| |l HL] using arg_rect2; intros a H; cbn in H;
      try (destruct H as [<-|[]]; exact I). apply in_flat_map in H. destruct H as [c [H1 H2]]. rewrite Forall_forall in HL. exact (HL c H1 a H2). }
  revert m. induction (flat_map flat args) as [|a l IH]; intros m H; cbn zeta.
  - cbn in H. injection H as <-. auto.
  - assert (IH' := IH (fun b Hb => FL b (or_intror Hb))). clear IH. specialize (FL a (or_introl eq_refl)).
    cbn [add] in H. destruct a as [|p|q|]; try contradiction; try discriminate H. cbn [add_arg] in H. unfold add_param in H.
    destruct (cpp_add (pm_state m) p) as [s [n|]] eqn:E; [discriminate H|]. specialize (IH' _ H). cbn zeta in IH'. destruct IH' as [I1 [I2 I3]].
    cbn [params length fold_left]. split; [now rewrite I1|]. unfold last_shape in *. cbn [fold_left]. rewrite E. cbn [fst]. auto.
Qed.
(** [None] anywhere: RuntimeError, never silently ignored. *)
Theorem C84_none : forall S P (cpp_add : S -> P -> S * option nat) is_shape m args, In ANone (flat_map flat args) -> snd (add cpp_add is_shape m args) <> None.
Proof.
  intros S P cpp_add is_shape m args H E. rewrite C84 in E. revert m E. induction (flat_map flat args) as [|a l IH]; intros m E; [destruct H|].
  cbn [add] in E. destruct (add_arg cpp_add is_shape m a) as [m' [e|]] eqn:A; [discriminate E|]. destruct H as [->|H]; [discriminate A|]. exact (IH H m' E).
Qed.

Example C84_example :
  let cpp := fun (s : list nat) (p : nat) => if p =? 9 then (s, Some 1) else (s ++ [p], None) in
  let m := PyModel [] None in
  add cpp (fun p => p =? 2) m [AParam 1; ASeq [AParam 2; ASeq [AParam 3]; ASeq []]; AParam 4] = (PyModel [1; 2; 3; 4] (Some 2), None) /\
  add cpp (fun p => p =? 2) m [ASeq [AParam 1; ANone]; AParam 4] = (PyModel [1] None, Some RuntimeError) /\
  add cpp (fun p => p =? 2) m [ASeq [AParam 1; AForeign]; AParam 4] = (PyModel [1] None, Some TypeError) /\
  add cpp (fun p => p =? 2) m [ASeq [AParam 1; AParam 9]; AParam 4] = (PyModel [1] None, Some (OtherError 1)).
Proof. vm_compute. auto. Qed.
