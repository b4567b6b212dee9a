(* The compressed matrix has the elements and the positions of the contributions. *)
From Verif Require Import Base Scalar Blocks Hamiltonian KpmSpec Compress.
From Coq Require Import Sorted.

Section P.
  Variable R : scalar.
  Add Ring RringCp : (k_ring R).
  Local Open Scope k_scope.

  Lemma row_add_cols : forall c (v : R) row j, In j (map fst (row_add c v row)) <-> j = c \/ In j (map fst row).
  Proof.
    intros c v row j. induction row as [|e t IH]; cbn [row_add map In]; [intuition|].
    destruct (Nat.eqb_spec c (fst e)) as [->|N]; [cbn [map fst In]; intuition|].
    destruct (c <? fst e); cbn [map fst In]; [intuition|]. rewrite IH. intuition.
  Qed.
  Lemma row_add_sorted : forall c (v : R) row, StronglySorted lt (map fst row) -> StronglySorted lt (map fst (row_add c v row)).
  Proof.
    intros c v row. induction row as [|e t IH]; intros S; cbn [row_add map]; [repeat constructor|].
    inversion S as [|? ? S1 S2]; subst. destruct (Nat.eqb_spec c (fst e)) as [->|N]; [exact S|].
    destruct (Nat.ltb_spec c (fst e)) as [L|L]; cbn [map fst].
    - constructor; [exact S|]. constructor; [exact L|]. rewrite Forall_forall in *. intros x Hx. specialize (S2 x Hx). lia.
    - constructor; [apply IH, S1|]. apply Forall_forall. intros x Hx. apply row_add_cols in Hx. destruct Hx as [->|Hx]; [lia|]. rewrite Forall_forall in S2. apply S2, Hx.
  Qed.
  Lemma row_add_sum : forall c (v : R) row j, ksum (fun e => if fst e =? j then snd e else k0) (row_add c v row)
    = ksum (fun e => if fst e =? j then snd e else k0) row + (if c =? j then v else k0).
  Proof.
    intros c v row j. induction row as [|e t IH]; cbn [row_add]; [rewrite ksum_cons, !ksum_nil; cbn [fst snd]; ring|].
    destruct (Nat.eqb_spec c (fst e)) as [E|N].
    - rewrite !ksum_cons. cbn [fst snd]. rewrite E. destruct (fst e =? j); ring.
    - destruct (c <? fst e); rewrite !ksum_cons; cbn [fst snd]; [ring|]. rewrite IH. ring.
  Qed.
  Lemma row_facts : forall i (m : sparse R) row, StronglySorted lt (map fst row) ->
    let r := fold_left (fun row e => if fst (fst e) =? i then row_add (snd (fst e)) (snd e) row else row) m row in
    StronglySorted lt (map fst r) /\ (forall j, In j (map fst r) <-> In j (map fst row) \/ In (i, j) (map fst m)) /\
    forall j, ksum (fun e => if fst e =? j then snd e else k0) r = ksum (fun e => if fst e =? j then snd e else k0) row + coeff m i j.
  Proof.
    intros i m. induction m as [|[[a b] v] m IH]; intros row S; cbn [fold_left fst snd].
    - split; [exact S|]. split; [intros j; cbn [map In]; intuition|]. intros j. unfold coeff. rewrite ksum_nil. ring.
    - destruct (Nat.eqb_spec a i) as [->|N].
      + destruct (IH (row_add b v row) (row_add_sorted b v row S)) as (I1 & I2 & I3). split; [exact I1|]. split.
        * intros j. rewrite I2, row_add_cols. cbn [map fst In]. split; [intros [[->|H]|H]; auto|]. intros [H|[H|H]]; auto. injection H as ->. auto.
        * intros j. rewrite I3, row_add_sum. unfold coeff. rewrite ksum_cons. unfold coo_eqb at 2. cbn [fst snd]. rewrite Nat.eqb_refl. cbn [andb]. ring.
      + destruct (IH row S) as (I1 & I2 & I3). split; [exact I1|]. split.
        * intros j. rewrite I2. cbn [map fst In]. split; [intuition|]. intros [H|[H|H]]; auto. injection H as E _. congruence.
        * intros j. rewrite I3. unfold coeff. rewrite ksum_cons. unfold coo_eqb at 2. cbn [fst snd]. apply Nat.eqb_neq in N. rewrite N. cbn [andb]. ring.
  Qed.
  Lemma compress_row : forall N (m : sparse R) i, i < N -> entries (compress N m) i = compressed_row m i.
  Proof.
    intros N m i Hi. unfold entries, compress. rewrite (nth_indep _ _ (compressed_row m 0)) by (rewrite map_length, seq_length; exact Hi).
    rewrite map_nth, seq_nth by exact Hi. reflexivity.
  Qed.
  Lemma compress_out : forall N (m : sparse R) i, N <= i -> entries (compress N m) i = [].
  Proof. intros N m i Hi. unfold entries, compress. apply nth_overflow. rewrite map_length, seq_length. exact Hi. Qed.

  (** Elements, stored positions, form. *)
  Lemma compress_coef : forall N (m : sparse R) i j, i < N -> coef (compress N m) i j = coeff m i j.
  Proof.
    intros N m i j Hi. unfold coef. rewrite compress_row by exact Hi. destruct (row_facts i m [] ltac:(constructor)) as (_ & _ & F).
    unfold compressed_row. rewrite F, ksum_nil. ring.
  Qed.
  Lemma compress_linked : forall N (m : sparse R) i j, linked (compress N m) i j <-> i < N /\ In (i, j) (map fst m).
  Proof.
    intros N m i j. unfold linked. destruct (Nat.lt_ge_cases i N) as [H|H].
    - rewrite compress_row by exact H. destruct (row_facts i m [] ltac:(constructor)) as (_ & F & _). unfold compressed_row. rewrite F. cbn [map In]. intuition.
    - rewrite compress_out by exact H. cbn [map In]. intuition lia.
  Qed.
  Lemma compress_wf : forall N (m : sparse R), (forall e, In e m -> fst (fst e) < N /\ snd (fst e) < N) -> wf_csr N (compress N m).
  Proof.
    intros N m H. split; [unfold compress; rewrite map_length, seq_length; reflexivity|]. split.
    - intros i e He. assert (L : linked (compress N m) i (fst e)) by (apply in_map, He). apply compress_linked in L. destruct L as (_ & L).
      apply in_map_iff in L. destruct L as (x & E & Ix). specialize (H x Ix). rewrite E in H. apply H.
    - intros i. destruct (Nat.lt_ge_cases i N) as [L|L]; [|rewrite compress_out by exact L; constructor].
      rewrite compress_row by exact L. destruct (row_facts i m [] ltac:(constructor)) as (F & _). fold (compressed_row m i) in F.
      revert F. generalize (map fst (compressed_row m i)). intros l S. induction S as [|x l S IH F]; constructor; auto. intros I. rewrite Forall_forall in F. specialize (F x I). lia.
  Qed.
  (** Columns of a row are in increasing order. *)
  Lemma compress_sorted : forall N (m : sparse R) i, StronglySorted lt (map fst (entries (compress N m) i)).
  Proof.
    intros N m i. destruct (Nat.lt_ge_cases i N) as [L|L]; [|rewrite compress_out by exact L; constructor].
    rewrite compress_row by exact L. apply (row_facts i m []). constructor.
  Qed.
End P.
