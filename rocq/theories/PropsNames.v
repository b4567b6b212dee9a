(* C81: a name selects the same sites in a modifier and in a finished system *)
From Verif Require Import Base AliasNames.
From Coq Require Import String Ascii.
Local Open Scope string_scope.

(** ** Specification *)

(** [name] is of the family [other]: equal, or equal up to the first bar *)
Definition of_family (name other : string) : Prop :=
  name = other \/ exists rest, name = other ++ String bar rest.

(** No bar in a string *)
Fixpoint plain (s : string) : Prop := match s with EmptyString => True | String c t => c <> bar /\ plain t end.

(** Names and numbers are one to one *)
Definition one_to_one (m : mapping) : Prop := NoDup (map fst m) /\ NoDup (map snd m).

(** ** The comparison of names *)

Lemma first_plain : forall s, plain (first s).
Proof. induction s as [|c s IH]; cbn; auto. destruct (Ascii.eqb_spec c bar); cbn; auto. Qed.
Lemma first_split : forall s, s = first s \/ exists rest, s = first s ++ String bar rest.
Proof.
  induction s as [|c s IH]; cbn; auto. destruct (Ascii.eqb_spec c bar) as [->|N].
  - right. exists s. reflexivity.
  - destruct IH as [IH|[r IH]]; [left|right; exists r; cbn]; now rewrite <- IH.
Qed.
Lemma first_of : forall p rest, plain p -> first (p ++ String bar rest) = p.
Proof.
  induction p as [|c p IH]; intros rest H; cbn; auto. destruct H as [N H].
  destruct (Ascii.eqb_spec c bar); [contradiction|]. now rewrite IH.
Qed.

(** For names without a bar, [==] is membership in the family. *)
Theorem C81_names : forall name other, plain other -> (split_eq name other = true <-> of_family name other).
Proof.
  intros name other P. unfold split_eq. rewrite orb_true_iff, !String.eqb_eq. unfold of_family. split.
  - intros [H|H]; [now left|]. destruct (first_split name) as [E|[r E]]; [left; congruence|right; exists r; congruence].
  - intros [H|[r ->]]; [now left|]. right. now apply first_of.
Qed.
(** With a bar only the whole name counts. *)
Theorem C81_whole_names : forall name other, ~ plain other -> (split_eq name other = true <-> name = other).
Proof.
  intros name other P. unfold split_eq. rewrite orb_true_iff, !String.eqb_eq. split; [|auto].
  intros [H|H]; [exact H|]. exfalso. apply P. rewrite <- H. apply first_plain.
Qed.
Theorem C81_not_equal : forall name other, split_ne name other = negb (split_eq name other).
Proof. intros. unfold split_ne, split_eq. now rewrite negb_orb. Qed.

(** ** The arrays *)

Section Arrays.
  Variable m : mapping.
  Hypothesis HM : one_to_one m.

  Lemma lookup_in : forall (l : mapping) o v, lookup l o = Some v -> In (o, v) l.
  Proof.
    induction l as [|[k w] l IH]; cbn; intros o v H; [discriminate H|].
    destruct (String.eqb_spec k o) as [->|N]; [injection H as ->; now left|right; auto].
  Qed.
  Lemma lookup_none : forall (l : mapping) o, lookup l o = None -> forall v, ~ In (o, v) l.
  Proof.
    induction l as [|[k w] l IH]; cbn; intros o H v I; [exact I|].
    destruct (String.eqb_spec k o) as [->|N]; [discriminate H|]. destruct I as [E|I]; [congruence|eapply IH; eauto].
  Qed.
  Lemma nodup_snd : forall (l : mapping) k k' v, NoDup (map snd l) -> In (k, v) l -> In (k', v) l -> k = k'.
  Proof.
    induction l as [|[a b] l IH]; cbn; intros k k' v N H H'; [contradiction|]. inversion N as [|? ? NI N']; subst.
    destruct H as [H|H], H' as [H'|H'].
    - congruence.
    - injection H as -> ->. exfalso. apply NI. apply (in_map snd) in H'. exact H'.
    - injection H' as -> ->. exfalso. apply NI. apply (in_map snd) in H. exact H.
    - eauto.
  Qed.

  Definition hit (l : mapping) (o : string) (i : nat) : bool :=
    existsb (fun kv => split_eq (fst kv) o && Nat.eqb i (snd kv)) l.

  Lemma fold_hits : forall (l : mapping) o ids res, List.length res = List.length ids ->
    fold_left (fun res kv => if split_eq (fst kv) o
        then map (fun rb => orb (fst rb) (snd rb)) (combine res (map (fun i => Nat.eqb i (snd kv)) ids)) else res) l res
    = map (fun ri => orb (fst ri) (hit l o (snd ri))) (combine res ids).
  Proof.
    induction l as [|kv l IH]; intros o ids res HL; cbn [fold_left].
    - revert ids HL. induction res as [|r res IH]; intros [|i ids] HL; try discriminate HL; [reflexivity|].
      cbn. rewrite orb_false_r. f_equal. apply IH. now injection HL.
    - rewrite IH.
      + clear IH. unfold hit. cbn [existsb]. destruct (split_eq (fst kv) o) eqn:E; [|reflexivity].
        revert ids HL. induction res as [|r res IH]; intros [|i ids] HL; try discriminate HL; [reflexivity|].
        cbn. rewrite orb_assoc. f_equal. apply IH. now injection HL.
      + destruct (split_eq (fst kv) o); [|exact HL]. rewrite map_length, combine_length, map_length. lia.
  Qed.

  (** the selected sites: by the whole name if there is one, by the family otherwise *)
  Lemma mapped_eq_spec : forall ids other, mapped_eq m ids other =
    map (fun i => match lookup m other with Some v => Nat.eqb i v | None => hit m other i end) ids.
  Proof.
    intros ids other. unfold mapped_eq. destruct (lookup m other) as [v|]; [reflexivity|].
    rewrite fold_hits by now rewrite map_length.
    induction ids as [|i ids IH]; [reflexivity|]. cbn. f_equal. exact IH.
  Qed.

  Lemma hit_name : forall o name i, In (name, i) m -> hit m o i = split_eq name o.
  Proof.
    intros o name i H. unfold hit. destruct (split_eq name o) eqn:E.
    - apply existsb_exists. exists (name, i). split; [exact H|]. cbn. now rewrite E, Nat.eqb_refl.
    - apply not_true_is_false. intro C. apply existsb_exists in C. destruct C as [[k v] [I C]].
      apply andb_true_iff in C. cbn in C. destruct C as [C1 C2]. apply Nat.eqb_eq in C2. subst v.
      rewrite (nodup_snd m k name i (proj2 HM) I H) in C1. congruence.
  Qed.

  (** The families that a name selects in a system array are the ones that it selects in a modifier,
      unless the name is a whole name and also the family of another one. *)
  Lemma array_index : forall other,
    (forall v, In (other, v) m -> forall name w, In (name, w) m -> of_family name other -> name = other) ->
    forall ids, (forall i, In i ids -> exists name, In (name, i) m) ->
    forall k i name, nth_error ids k = Some i -> In (name, i) m ->
      nth_error (array_eq m ids other) k = Some (split_eq name other) /\
      nth_error (array_ne m ids other) k = Some (split_ne name other).
  Proof.
    intros other H ids HI k i name HK HN.
    assert (E : nth_error (mapped_eq m ids other) k = Some (split_eq name other)).
    { rewrite mapped_eq_spec, nth_error_map, HK. cbn [option_map]. f_equal.
      destruct (lookup m other) as [v|] eqn:EL; [|now apply hit_name].
      apply lookup_in in EL. destruct (Nat.eqb_spec i v) as [->|N].
      - rewrite (nodup_snd m other name v (proj2 HM) EL HN). symmetry. unfold split_eq. now rewrite String.eqb_refl.
      - symmetry. apply not_true_is_false. intro C.
        assert (F : of_family name other).
        { destruct (String.eqb_spec name other) as [->|NE]; [now left|]. unfold split_eq in C.
          apply orb_true_iff in C. rewrite !String.eqb_eq in C. destruct C as [C|C]; [contradiction|].
          destruct (first_split name) as [X|[r X]]; [congruence|]. right. exists r. congruence. }
        pose proof (H v EL name i HN F). subst name. apply N.
        clear - EL HN HM. destruct HM as [NF _]. revert NF EL HN. generalize m. induction m0 as [|[a b] l IH]; cbn; intros; [contradiction|].
        inversion NF as [|? ? NI NF']; subst.
        destruct EL as [EL|EL], HN as [HN|HN].
        + congruence.
        + injection EL as -> ->. exfalso. apply NI. apply (in_map fst) in HN. exact HN.
        + injection HN as -> ->. exfalso. apply NI. apply (in_map fst) in EL. exact EL.
        + auto. }
    split; [exact E|]. unfold array_ne. rewrite nth_error_map, E. cbn. now rewrite C81_not_equal.
  Qed.
End Arrays.

(** ** The full claim *)

(** The comparison of the system's array with a string gives, at every site, what a modifier that is
    called for the family of that site gets. *)
Definition C81_claim : Prop := forall (m : mapping) (ids : list nat) (other : string),
  one_to_one m -> (forall i, In i ids -> exists name, In (name, i) m) ->
  forall k i name, nth_error ids k = Some i -> In (name, i) m ->
    nth_error (array_eq m ids other) k = Some (split_eq name other) /\
    nth_error (array_ne m ids other) k = Some (split_ne name other).

Theorem C81_partial : forall (m : mapping) (ids : list nat) (other : string),
  one_to_one m -> (forall i, In i ids -> exists name, In (name, i) m) ->
  (forall v, In (other, v) m -> forall name w, In (name, w) m -> of_family name other -> name = other) ->
  forall k i name, nth_error ids k = Some i -> In (name, i) m ->
    nth_error (array_eq m ids other) k = Some (split_eq name other) /\
    nth_error (array_ne m ids other) k = Some (split_ne name other).
Proof. intros m ids other HM HI H k i name. apply (array_index m HM other H ids HI). Qed.

(** A lattice with the sublattices "A" and "A|2": in a modifier [sub_id == "A"] is true for both, in
    the system [sub == "A"] is true for the first one only. *)
Definition two_a : mapping := [("A", 0); ("A|2", 1)].
Lemma two_a_ok : one_to_one two_a.
Proof. split; repeat constructor; cbn; intuition discriminate. Qed.
Theorem C81_refuted : ~ C81_claim.
Proof.
  intro C. destruct (C two_a [0; 1] "A" two_a_ok) with (k := 1) (i := 1) (name := "A|2") as [H _]; cbn; auto.
  - intros i [<-|[<-|[]]]; [exists "A"|exists "A|2"]; cbn; auto.
  - vm_compute in H. discriminate H.
Qed.

(** ** Examples *)
Definition three : mapping := [("A|1", 0); ("B", 1); ("A|2", 2)].
Example ex_family : array_eq three [0; 1; 0; 2] "A" = [true; false; true; true].
Proof. reflexivity. Qed.
Example ex_family_ne : array_ne three [0; 1; 0; 2] "A" = [false; true; false; false].
Proof. reflexivity. Qed.
Example ex_whole : array_eq three [0; 1; 0; 2] "A|2" = [false; false; false; true].
Proof. reflexivity. Qed.
Example ex_second : array_eq three [0; 1; 0; 2] "2" = [false; false; false; false].
Proof. reflexivity. Qed.
Example ex_modifier : index_eq "A|2" 3 "A" = [true; true; true].
Proof. reflexivity. Qed.
(** In a modifier, whose sites are all of one name, a comparison has one answer for all of them. *)
Theorem C81_modifier : forall name shape other, plain other ->
  List.length (index_eq name shape other) = shape /\ List.length (index_ne name shape other) = shape /\
  (forall b, In b (index_eq name shape other) -> (b = true <-> of_family name other)) /\
  (forall b, In b (index_ne name shape other) -> (b = true <-> ~ of_family name other)).
Proof.
  intros name shape other P. unfold index_eq, index_ne. rewrite !repeat_length. split; [reflexivity|]. split; [reflexivity|].
  split; intros b H; apply repeat_spec in H; subst b; [now apply C81_names|].
  rewrite C81_not_equal, negb_true_iff. rewrite <- (C81_names name other P). destruct (split_eq name other); intuition; discriminate.
Qed.
Example ex_modifier_ne : index_ne "A|2" 2 "A" = [false; false] /\ index_ne "A|2" 2 "B" = [true; true].
Proof. split; reflexivity. Qed.
Example ex_applies : forall v, In ("A", v) three -> forall name w, In (name, w) three -> of_family name "A" -> name = "A".
Proof. cbn. intros v [H|[H|[H|[]]]]; discriminate H. Qed.
