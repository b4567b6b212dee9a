(* C80: a position modifier moves the sites to the positions that its function returned *)
From Verif Require Import Base PositionResult.

(** All coordinates have the same length, the views are of existing coordinates. *)
Definition well_formed {A} (mem : list (list A)) (rs : list (returned A)) : Prop :=
  (exists n, Forall (fun c => length c = n) mem /\ Forall (fun r => length (content mem r) = n) rs) /\
  length rs = length mem /\ forall k, In (Live k) rs -> k < length mem.

Definition C80_claim : Prop := forall (A : Type) (mem : list (list A)) (rs : list (returned A)),
  well_formed mem rs -> store_all mem rs = Ok (map (content mem) rs).

(** [return y, x, z] *)
Theorem C80_refuted : ~ C80_claim.
Proof.
  intro C. specialize (C nat [[1]; [2]; [3]] [Live 1; Live 0; Live 2]).
  assert (W : well_formed [[1]; [2]; [3]] [Live 1; Live 0; Live 2]).
  { split; [exists 1; split; repeat constructor|]. split; [reflexivity|]. cbn. intros k [H|[H|[H|[]]]]; injection H as <-; lia. }
  specialize (C W). vm_compute in C. discriminate C.
Qed.

Section Proofs.
  Context {A : Type}.
  Implicit Types (mem : list (list A)) (rs : list (returned A)).

  (** the memory after the first [k] coordinates have been stored *)
  Definition half mem (done : list (list A)) : list (list A) := done ++ skipn (length done) mem.

  Lemma nth_half_late : forall mem done k, length done <= k -> length done <= length mem -> nth k (half mem done) [] = nth k mem [].
  Proof.
    intros mem done k H L. unfold half. rewrite app_nth2 by lia.
    assert (G : forall (l : list (list A)) n j, nth j (skipn n l) [] = nth (n + j) l []).
    { induction l as [|x l IH]; intros [|n] j; cbn; auto; destruct j; reflexivity. }
    rewrite G. f_equal. lia.
  Qed.
  Lemma upd_half : forall mem done c, length done < length mem -> upd (half mem done) (length done) c = half mem (done ++ [c]).
  Proof.
    intros mem done c L. unfold half. rewrite app_length. cbn [length].
    revert mem L. induction done as [|d done IH]; intros mem L; cbn [app length upd Nat.add].
    - destruct mem; cbn in *; [lia|reflexivity].
    - f_equal. destruct mem as [|m mem]; [cbn in L; lia|]. cbn [skipn]. apply IH. cbn in L. lia.
  Qed.

  (** what the stored coordinates are, in general: a view of an earlier coordinate shows its new values *)
  Fixpoint seen mem (done : list (list A)) rs : list (list A) :=
    match rs with
    | [] => done
    | r :: t => seen mem (done ++ [content (half mem done) r]) t
    end.

  Lemma length_half : forall mem done, length done <= length mem -> length (half mem done) = length mem.
  Proof. intros. unfold half. rewrite app_length, skipn_length. lia. Qed.

  Lemma store_from : forall mem n, Forall (fun c => length c = n) mem ->
    forall rs done, Forall (fun c => length c = n) done -> length done + length rs = length mem ->
    (forall r, In r rs -> match r with Fresh l => length l = n | Live k => k < length mem end) ->
    ofold (fun m kr => store m (fst kr) (snd kr)) (combine (seq (length done) (length rs)) rs) (half mem done)
      = Ok (seen mem done rs).
  Proof.
    intros mem n HM. induction rs as [|r rs IH]; intros done HD HL HR; cbn [length seq combine ofold seen].
    - unfold half. rewrite skipn_all2 by (cbn in HL; lia). now rewrite app_nil_r.
    - assert (HH : Forall (fun c => length c = n) (half mem done)).
      { unfold half. apply Forall_app. split; [exact HD|].
        rewrite <- (firstn_skipn (length done) mem) in HM. apply Forall_app in HM. tauto. }
      assert (GET : forall k, k < length mem -> length (nth k (half mem done) []) = n).
      { intros k Hk. rewrite Forall_nth in HH. apply HH. rewrite length_half; cbn in HL; lia. }
      assert (CN : length (content (half mem done) r) = n).
      { specialize (HR r (or_introl eq_refl)). destruct r as [l|k]; cbn [content]; auto. }
      unfold store at 1. cbn [fst snd]. rewrite CN, GET by (cbn in HL; lia). rewrite Nat.eqb_refl. cbn [obind].
      rewrite upd_half by (cbn in HL; lia).
      specialize (IH (done ++ [content (half mem done) r])).
      rewrite app_length in IH. cbn [length] in IH. rewrite Nat.add_1_r in IH. apply IH.
      + apply Forall_app. split; auto.
      + cbn in HL. lia.
      + intros r' Hr. apply HR. now right.
  Qed.

  Lemma shape_of : forall mem rs, well_formed mem rs ->
    exists n, Forall (fun c => length c = n) mem /\
    forall r, In r rs -> match r with Fresh l => length l = n | Live k => k < length mem end.
  Proof.
    intros mem rs [[n [HM HR]] [HL HV]]. exists n. split; [exact HM|]. intros [l|k] Hr; [|auto].
    rewrite Forall_forall in HR. apply (HR (Fresh l) Hr).
  Qed.

  (** The modifier never fails and stores the coordinates in turn. *)
  Lemma store_all_seen : forall mem rs, well_formed mem rs -> store_all mem rs = Ok (seen mem [] rs).
  Proof.
    intros mem rs W. destruct (shape_of mem rs W) as [n [HM HR]]. destruct W as [_ [HL _]].
    apply (store_from mem n HM rs []); auto.
  Qed.

  Lemma seen_ok : forall mem rs done, length done + length rs <= length mem ->
    (forall k j, nth_error rs k = Some (Live j) -> length done + k <= j) ->
    seen mem done rs = done ++ map (content mem) rs.
  Proof.
    intros mem. induction rs as [|r rs IH]; intros done HL HV; cbn [seen map].
    - now rewrite app_nil_r.
    - rewrite IH.
      + rewrite <- app_assoc. cbn [app]. do 2 f_equal. destruct r as [l|j]; cbn [content]; [reflexivity|].
        apply nth_half_late; [|cbn in HL; lia]. specialize (HV 0 j eq_refl). lia.
      + rewrite app_length. cbn in *. lia.
      + intros k j H. rewrite app_length. cbn [length]. specialize (HV (S k) j H). lia.
  Qed.

  (** Right when no result is the view of an earlier coordinate: [x] may be given by the views of x, y
      or z, [y] by those of y or z, [z] by that of z. *)
  Theorem C80_partial : forall mem rs, well_formed mem rs ->
    (forall k j, nth_error rs k = Some (Live j) -> k <= j) ->
    store_all mem rs = Ok (map (content mem) rs).
  Proof.
    intros mem rs W HV. rewrite store_all_seen by exact W. f_equal.
    rewrite seen_ok; [reflexivity| |exact HV]. destruct W as [_ [HL _]]. cbn. lia.
  Qed.
End Proofs.

(** The view of an earlier coordinate shows what was stored there: a swap of x and y loses x. *)
Theorem C80_swap : forall (A : Type) (x y z : list A), length y = length x -> length z = length x ->
  store_all [x; y; z] [Live 1; Live 0; Live 2] = Ok [y; y; z].
Proof.
  intros A x y z HY HZ. unfold store_all. cbn [length seq combine ofold fst snd]. unfold store. cbn [content nth upd].
  rewrite HY, Nat.eqb_refl. cbn [obind nth upd]. rewrite HY, Nat.eqb_refl. cbn [obind nth upd]. rewrite Nat.eqb_refl. reflexivity.
Qed.

(** A rotation of the plane by a right angle made of one new array and one view: [return -y, x, z] *)
Example ex_rotation : store_all [[1; 2]; [3; 4]; [5; 6]] [Fresh [13; 14]; Live 0; Live 2] = Ok [[13; 14]; [13; 14]; [5; 6]].
Proof. reflexivity. Qed.
Example ex_shift : store_all [[1; 2]; [3; 4]; [5; 6]] [Live 0; Fresh [7; 8]; Live 2] = Ok [[1; 2]; [7; 8]; [5; 6]].
Proof. reflexivity. Qed.
Example ex_first_from_last : store_all [[1; 2]; [3; 4]; [5; 6]] [Live 2; Fresh [7; 8]; Live 2] = Ok [[5; 6]; [7; 8]; [5; 6]].
Proof. reflexivity. Qed.
Example ex_size : store_all [[1; 2]; [3; 4]; [5; 6]] [Live 0; Fresh [7; 8; 9]; Live 2] = Throw.
Proof. reflexivity. Qed.
