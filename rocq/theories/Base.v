(* Shared vocabulary of the model: outcomes, array updates, masks, sums.
   Nothing here mirrors project code directly except where a comment says so. *)
From Coq Require Export List Arith Lia Bool ZArith.
Export ListNotations.

(** Result of running a modelled C++ function.  [Throw] is a C++ exception,
    [UB] is undefined behaviour (out-of-range access and the like). *)
Inductive outcome (A : Type) : Type :=
| Ok (a : A)
| Throw
| UB.
Arguments Ok {A} a.
Arguments Throw {A}.
Arguments UB {A}.

Definition obind {A B} (x : outcome A) (f : A -> outcome B) : outcome B :=
  match x with Ok a => f a | Throw => Throw | UB => UB end.

Definition omap {A B} (f : A -> B) (x : outcome A) : outcome B :=
  obind x (fun a => Ok (f a)).

Definition is_ok {A} (x : outcome A) : bool :=
  match x with Ok _ => true | _ => false end.

(** Array read with bounds: out of range is [UB]. *)
Definition aget {A} (l : list A) (i : nat) : outcome A :=
  match nth_error l i with Some x => Ok x | None => UB end.

(** Array write; out of range leaves the list unchanged (callers check). *)
Fixpoint upd {A} (l : list A) (i : nat) (x : A) : list A :=
  match l, i with
  | [], _ => []
  | _ :: t, 0 => x :: t
  | a :: t, S j => a :: upd t j x
  end.

(** Run a list of steps left to right, stopping at the first non-[Ok]. *)
Fixpoint ofold {A B} (f : A -> B -> outcome A) (l : list B) (a : A) : outcome A :=
  match l with
  | [] => Ok a
  | b :: t => obind (f a b) (fun a' => ofold f t a')
  end.

(** [std::accumulate] over a list of naturals. *)
Definition sum_list (l : list nat) : nat := fold_left Nat.add l 0.

Definition b2n (b : bool) : nat := if b then 1 else 0.

Definition count_true (l : list bool) : nat := sum_list (map b2n l).

(** Keep the entries of [l] whose flag in [keep] is true.
    numeric/dense.hpp:322-335 [slice]. *)
Fixpoint mask {A} (keep : list bool) (l : list A) : list A :=
  match keep, l with
  | k :: ks, x :: xs => if k then x :: mask ks xs else mask ks xs
  | _, _ => []
  end.

(** Number of occurrences of [x]. *)
Definition countb {A} (p : A -> bool) (l : list A) : nat := length (filter p l).

(* ------------------------------------------------------------------ *)
(* Generic lemmas *)

Lemma fold_left_add_acc : forall l a, fold_left Nat.add l a = a + fold_left Nat.add l 0.
Proof.
  induction l as [|x l IH]; intros a; simpl; [lia|].
  rewrite IH, (IH x). lia.
Qed.

Lemma sum_list_nil : sum_list [] = 0. Proof. reflexivity. Qed.

Lemma sum_list_cons : forall x l, sum_list (x :: l) = x + sum_list l.
Proof. intros; unfold sum_list; simpl. apply fold_left_add_acc. Qed.

Lemma sum_list_app : forall l1 l2, sum_list (l1 ++ l2) = sum_list l1 + sum_list l2.
Proof.
  induction l1 as [|x l1 IH]; intros l2; [reflexivity|].
  rewrite <- app_comm_cons, !sum_list_cons, IH. lia.
Qed.

Lemma sum_list_repeat : forall n x, sum_list (repeat x n) = n * x.
Proof.
  induction n; intros; simpl; [reflexivity|].
  rewrite sum_list_cons, IHn. reflexivity.
Qed.

Lemma count_true_cons : forall b l, count_true (b :: l) = b2n b + count_true l.
Proof. intros; unfold count_true; simpl. apply sum_list_cons. Qed.

Lemma count_true_app : forall l1 l2, count_true (l1 ++ l2) = count_true l1 + count_true l2.
Proof. intros; unfold count_true. rewrite map_app. apply sum_list_app. Qed.

Lemma mask_app : forall {A} (k1 k2 : list bool) (l1 l2 : list A),
  length k1 = length l1 -> mask (k1 ++ k2) (l1 ++ l2) = mask k1 l1 ++ mask k2 l2.
Proof.
  induction k1 as [|k k1 IH]; intros k2 [|x l1] l2 H; simpl in *; try discriminate; auto.
  destruct k; rewrite IH by lia; reflexivity.
Qed.

Lemma mask_repeat : forall {A} (k : list bool) (x : A) n,
  length k = n -> mask k (repeat x n) = repeat x (count_true k).
Proof.
  induction k as [|b k IH]; intros x [|n] H; simpl in *; try discriminate; auto.
  rewrite count_true_cons. destruct b; simpl; rewrite IH by lia; reflexivity.
Qed.

Lemma mask_length : forall {A} (k : list bool) (l : list A),
  length k = length l -> length (mask k l) = count_true k.
Proof.
  induction k as [|b k IH]; intros [|x l] H; simpl in *; try discriminate; auto.
  rewrite count_true_cons. destruct b; simpl; rewrite IH by lia; reflexivity.
Qed.

Lemma upd_length : forall {A} (l : list A) i x, length (upd l i x) = length l.
Proof. induction l; destruct i; simpl; auto. Qed.

Lemma nth_error_upd_eq : forall {A} (l : list A) i x,
  i < length l -> nth_error (upd l i x) i = Some x.
Proof.
  induction l; destruct i; simpl; intros; try lia; auto. apply IHl; lia.
Qed.

Lemma nth_error_upd_neq : forall {A} (l : list A) i j x,
  i <> j -> nth_error (upd l i x) j = nth_error l j.
Proof.
  induction l; destruct i, j; simpl; intros; auto; try congruence.
Qed.

Lemma nth_upd_eq : forall {A} (l : list A) i x d,
  i < length l -> nth i (upd l i x) d = x.
Proof.
  induction l; destruct i; simpl; intros; try lia; auto. apply IHl; lia.
Qed.

Lemma nth_upd_neq : forall {A} (l : list A) i j x d,
  i <> j -> nth j (upd l i x) d = nth j l d.
Proof.
  induction l; destruct i, j; simpl; intros; auto; try congruence.
Qed.

Lemma nth_upd : forall {A} (l : list A) i j x d,
  i < length l -> nth j (upd l i x) d = if Nat.eqb i j then x else nth j l d.
Proof.
  intros. destruct (Nat.eqb_spec i j); subst; [apply nth_upd_eq | apply nth_upd_neq]; auto.
Qed.

Lemma ofold_app : forall {A B} (f : A -> B -> outcome A) l1 l2 a,
  ofold f (l1 ++ l2) a = obind (ofold f l1 a) (fun a' => ofold f l2 a').
Proof.
  induction l1 as [|b l1 IH]; intros l2 a; simpl; auto.
  destruct (f a b); simpl; auto.
Qed.

Lemma nth_error_nth_ok : forall {A} (l : list A) i d,
  i < length l -> nth_error l i = Some (nth i l d).
Proof. intros; apply nth_error_nth'; auto. Qed.

Lemma aget_ok : forall {A} (l : list A) i d,
  i < length l -> aget l i = Ok (nth i l d).
Proof. intros. unfold aget. rewrite (nth_error_nth_ok l i d H). reflexivity. Qed.

Lemma ofold_ext_in : forall {A B} (f g : A -> B -> outcome A) l a,
  (forall a b, In b l -> f a b = g a b) -> ofold f l a = ofold g l a.
Proof.
  induction l as [|b l IH]; intros a H; simpl; auto.
  rewrite H by (left; auto). destruct (g a b); simpl; auto. apply IH. intros; apply H; right; auto.
Qed.

Lemma NoDup_app_l : forall {A} (l1 l2 : list A), NoDup (l1 ++ l2) -> NoDup l1.
Proof.
  induction l1 as [|x l1 IH]; intros l2 H; [constructor|].
  inversion H; subst. constructor; [|eapply IH; eauto]. intros Hx. apply H2. apply in_app_iff; auto.
Qed.

Lemma NoDup_app_r : forall {A} (l1 l2 : list A), NoDup (l1 ++ l2) -> NoDup l2.
Proof. induction l1 as [|x l1 IH]; intros l2 H; auto. inversion H; subst; eauto. Qed.

Lemma NoDup_app_intro : forall {A} (l1 l2 : list A), NoDup l1 -> NoDup l2 ->
  (forall x, In x l1 -> In x l2 -> False) -> NoDup (l1 ++ l2).
Proof.
  induction l1 as [|x l1 IH]; intros l2 H1 H2 H; auto. inversion H1; subst. simpl. constructor.
  - intros Hx. apply in_app_iff in Hx. destruct Hx; auto. eapply H; [left; reflexivity|auto].
  - apply IH; auto. intros y Hy1 Hy2. eapply H; [right; eauto|auto].
Qed.

Lemma NoDup_app_disj : forall {A} (l1 l2 : list A) x, NoDup (l1 ++ l2) -> In x l1 -> In x l2 -> False.
Proof.
  induction l1 as [|y l1 IH]; intros l2 x H H1 H2; [inversion H1|].
  inversion H; subst. destruct H1 as [->|H1]; [|eapply IH; eauto]. apply H4. apply in_app_iff; auto.
Qed.

Lemma filter_len_le : forall {A} (f : A -> bool) l, length (filter f l) <= length l.
Proof. intros A f. induction l as [|x l IH]; simpl; [lia|]. destruct (f x); simpl; lia. Qed.
