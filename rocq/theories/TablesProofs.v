(* Glue lemmas for the table properties C12-C16. *)
From Verif Require Import Base Rle RleProofs Blocks BlocksProofs TablesSpec.
From Coq Require Import Sorted.

(* ---------------- C12: histories of the compressed table ---------------- *)
Definition norb_consistent (norb : nat -> nat) (d : rle) : Prop :=
  Forall (fun e => e_norb e = norb (e_id e)) d.

Lemma consistent_last_ok : forall norb d id, norb_consistent norb d -> last_ok d id (norb id).
Proof.
  intros norb d id H e d' -> <-. unfold norb_consistent in H.
  rewrite Forall_app in H. destruct H as [_ H]. inversion H; auto.
Qed.

Lemma consistent_add : forall norb d id c, norb_consistent norb d ->
  norb_consistent norb (rle_add d id (norb id) c).
Proof.
  intros norb d id c H. induction d as [|e d IH]; simpl.
  - constructor; [reflexivity|constructor].
  - inversion H; subst. destruct d as [|e2 d].
    + destruct (Nat.eqb (e_id e) id).
      * constructor; [simpl; auto|constructor].
      * constructor; [auto|]. constructor; [reflexivity|constructor].
    + constructor; [auto|]. apply IH; auto.
Qed.

Lemma consistent_map_eq : forall norb d d', map e_id d' = map e_id d -> map e_norb d' = map e_norb d ->
  norb_consistent norb d -> norb_consistent norb d'.
Proof.
  intros norb d. induction d as [|e d IH]; intros [|e' d'] H1 H2 H; simpl in *; try discriminate; [constructor|].
  inversion H1; inversion H2; inversion H; subst. constructor.
  - congruence.
  - apply IH; auto.
Qed.

Lemma table_history_gen : forall norb ops d l,
  norb_consistent norb d -> labels d = l ->
  forall l', plain_run norb ops l = Some l' ->
  exists d', table_run norb ops d = Ok d' /\ labels d' = l' /\ norb_consistent norb d'.
Proof.
  induction ops as [|[id c|keep] ops IH]; intros d l Hd Hl l' Hr; simpl in *.
  - injection Hr as <-. eauto.
  - eapply IH; [apply consistent_add; auto| |exact Hr].
    rewrite labels_add by (apply consistent_last_ok; auto). congruence.
  - destruct (Nat.eqb_spec (length keep) (length l)) as [E|]; [|discriminate].
    destruct (rle_filter_labels keep d) as (d1 & F & L & I1 & I2).
    { rewrite rle_size_labels. congruence. }
    rewrite F. simpl. eapply IH; [| |exact Hr].
    + eapply consistent_map_eq; eauto.
    + congruence.
Qed.

Lemma table_history : forall norb ops l', plain_run norb ops [] = Some l' ->
  exists d, table_run norb ops [] = Ok d /\
    decompressed d = map fst l' /\ rle_size d = length l' /\
    hamiltonian_size d = sum_list (map snd l') /\
    rle_of_arrays (alias_ids d) (site_counts d) (orbital_counts d) = Ok d /\
    (forall i, i < length l' -> exists h, to_hamiltonian_indices d i = Ok (seq h (snd (nth i l' (0, 0))))
                                 /\ h = sum_list (map snd (firstn i l'))).
Proof.
  intros norb ops l' H.
  destruct (table_history_gen norb ops [] [] (Forall_nil _) eq_refl l' H) as (d & R & L & C).
  exists d. repeat split; auto.
  - rewrite decompressed_labels. congruence.
  - rewrite rle_size_labels. congruence.
  - rewrite hamiltonian_size_labels. congruence.
  - apply rle_roundtrip.
  - intros i Hi. exists (orb_offset d i). rewrite to_ham_spec.
    + unfold orb_count, orb_offset. rewrite L. auto.
    + rewrite rle_size_labels. congruence.
Qed.

(* ---------------- C13 ---------------- *)
Lemma survivors_gen : forall keep s,
  filter (fun i => nth (i - s) keep false) (seq s (length keep)) =
  map (Nat.add s) (survivors keep).
Proof.
  unfold survivors. intros keep s. generalize (length keep) as n.
  assert (G : forall n a, filter (fun i => nth (i - s) keep false) (seq (s + a) n) =
      map (Nat.add s) (filter (fun i => nth i keep false) (seq a n))).
  { induction n; intros a; simpl; auto.
    replace (s + a - s) with a by lia. replace (S (s + a)) with (s + S a) by lia.
    rewrite IHn. destruct (nth a keep false); reflexivity. }
  intros n. rewrite <- G. f_equal. f_equal. lia.
Qed.

Lemma survivors_cons : forall b keep,
  survivors (b :: keep) = (if b then [0] else []) ++ map S (survivors keep).
Proof.
  intros b keep. unfold survivors at 1.
  change (seq 0 (length (b :: keep))) with (0 :: seq 1 (length keep)). 
  assert (E : filter (fun i => nth i (b :: keep) false) (seq 1 (length keep)) = map S (survivors keep)).
  { change (map S (survivors keep)) with (map (Nat.add 1) (survivors keep)).
    rewrite <- (survivors_gen keep 1). apply filter_ext_in. intros i Hi. apply in_seq in Hi.
    destruct i; [lia|]. simpl. rewrite Nat.sub_0_r. reflexivity. }
  cbn [filter]. rewrite E. cbn [nth]. destruct b; reflexivity.
Qed.

Lemma survivors_length : forall keep, length (survivors keep) = count_true keep.
Proof.
  induction keep as [|b keep IH]; [reflexivity|].
  rewrite survivors_cons, app_length, map_length, IH, count_true_cons. destruct b; reflexivity.
Qed.

Lemma survivors_new_index : forall keep i, nth i keep false = true ->
  nth_error (survivors keep) (new_index keep i) = Some i.
Proof.
  induction keep as [|b keep IH]; intros [|i] H; simpl in H; try discriminate.
  - subst. rewrite survivors_cons. reflexivity.
  - rewrite survivors_cons. unfold new_index. simpl firstn. rewrite count_true_cons.
    specialize (IH i H). unfold new_index in IH.
    destruct b; simpl; rewrite nth_error_map, IH; reflexivity.
Qed.

Lemma survivors_inv : forall keep k i, nth_error (survivors keep) k = Some i ->
  nth i keep false = true /\ new_index keep i = k.
Proof.
  induction keep as [|b keep IH]; intros k i H.
  - destruct k; discriminate.
  - rewrite survivors_cons in H. destruct b; simpl in H.
    + destruct k as [|k]; simpl in H.
      * injection H as <-. split; reflexivity.
      * rewrite nth_error_map in H. destruct (nth_error (survivors keep) k) as [j|] eqn:E; [|discriminate].
        injection H as <-. destruct (IH k j E) as [A B]. split; [exact A|].
        unfold new_index in *. simpl firstn. rewrite count_true_cons, B. reflexivity.
    + rewrite nth_error_map in H. destruct (nth_error (survivors keep) k) as [j|] eqn:E; [|discriminate].
      injection H as <-. destruct (IH k j E) as [A B]. split; [exact A|].
      unfold new_index in *. simpl firstn. rewrite count_true_cons, B. reflexivity.
Qed.

Lemma survivors_mask : forall {A} keep (l : list A), length keep = length l ->
  forall k i, nth_error (survivors keep) k = Some i -> nth_error (mask keep l) k = nth_error l i.
Proof.
  induction keep as [|b keep IH]; intros [|x l] H k i E; simpl in H; try discriminate.
  - destruct k; discriminate.
  - rewrite survivors_cons in E. destruct b; simpl in *.
    + destruct k; simpl in *; [injection E as <-; reflexivity|].
      rewrite nth_error_map in E. destruct (nth_error (survivors keep) k) as [j|] eqn:E2; [|discriminate].
      injection E as <-. simpl. apply IH; auto.
    + rewrite nth_error_map in E. destruct (nth_error (survivors keep) k) as [j|] eqn:E2; [|discriminate].
      injection E as <-. simpl. apply IH; auto.
Qed.

Lemma new_index_prefix : forall keep i, (forall k, k <= i -> nth k keep false = true) ->
  new_index keep i = i.
Proof.
  intros keep. unfold new_index. induction keep as [|b keep IH]; intros i H.
  - specialize (H 0 (Nat.le_0_l _)). discriminate.
  - assert (b = true) by (apply (H 0); lia). subst b. destruct i; [reflexivity|].
    simpl firstn. rewrite count_true_cons, IH; [reflexivity|]. intros k Hk. apply (H (S k)). lia.
Qed.

Lemma nth_error_map_some : forall {A B} (f : A -> B) l k y,
  nth_error (map f l) k = Some y -> exists x, nth_error l k = Some x /\ y = f x.
Proof.
  intros A B f l k y H. rewrite nth_error_map in H.
  destruct (nth_error l k); [|discriminate]. injection H as <-. eauto.
Qed.

Lemma remove_invalid_ok : forall {P S} (s : sysdata P S),
  sd_valid s <> [] -> wf_sys s ->
  remove_invalid s = Ok (SysData (mask (sd_valid s) (sd_pos s))
     (match rle_filter (sd_valid s) (sd_subs s) with Ok d => d | _ => [] end)
     (HB (count_true (sd_valid s)) (map (filter (kept (sd_valid s))) (hb_blocks (sd_hops s))))
     (map (fun b => (HB (count_true (sd_valid s)) (map (filter (kept (sd_valid s))) (hb_blocks (fst b))), snd b)) (sd_bounds s))
     []).
Proof.
  intros P S [pos subs hops bnds valid] Hv (H1 & H2 & H3 & H4). simpl in *.
  assert (R : hb_filter valid hops = Ok (HB (count_true valid) (map (filter (kept valid)) (hb_blocks hops)))).
  { apply hb_filter_ok. rewrite H1. unfold all_hops. eapply Forall_impl; [|exact H3]. intros a Ha. exact Ha. }
  destruct (rle_filter_labels valid subs) as (d & F & _); [congruence|].
  unfold remove_invalid. cbn [sd_valid sd_pos sd_subs sd_hops sd_bounds]. destruct valid as [|v0 valid]; [congruence|].
  set (valid' := v0 :: valid) in *. rewrite H1, Nat.eqb_refl. cbn [negb].
  rewrite F. cbn [obind]. rewrite R. cbn [obind].
  rewrite (osequence_ok _ (fun b => (HB (count_true valid') (map (filter (kept valid')) (hb_blocks (fst b))), snd b))).
  - reflexivity.
  - intros b Hb. rewrite hb_filter_ok; [reflexivity|]. rewrite H1.
    rewrite Forall_forall in H4. exact (H4 b Hb).
Qed.

Lemma remove_follow_gen : forall keep b,
  (forall i j, In (i, j) b -> nth i keep false = true -> nth j keep false = true ->
     forall k, k <= Nat.max i j -> nth k keep false = true) ->
  follows_sites keep b (filter (kept keep) b).
Proof.
  intros keep b H i j. split.
  - intros Hin. apply filter_In in Hin. destruct Hin as [Hin Hk]. unfold kept in Hk. simpl in Hk.
    apply andb_true_iff in Hk. destruct Hk as [K1 K2]. exists i, j. split; auto.
    specialize (H i j Hin K1 K2).
    split.
    + rewrite <- (new_index_prefix keep i) at 1; [apply survivors_new_index; auto|]. intros; apply H; lia.
    + rewrite <- (new_index_prefix keep j) at 1; [apply survivors_new_index; auto|]. intros; apply H; lia.
  - intros (i0 & j0 & Hin & S1 & S2). apply survivors_inv in S1. apply survivors_inv in S2.
    destruct S1 as [K1 <-], S2 as [K2 <-]. specialize (H i0 j0 Hin K1 K2).
    rewrite !new_index_prefix by (intros; apply H; lia). apply filter_In. split; auto.
    unfold kept. simpl. rewrite K1, K2. reflexivity.
Qed.

Lemma remove_invalid_tables : forall {P S} (s : sysdata P S),
  sd_valid s <> [] -> wf_sys s ->
  exists s', remove_invalid s = Ok s' /\
    (forall k i, nth_error (survivors (sd_valid s)) k = Some i ->
        nth_error (sd_pos s') k = nth_error (sd_pos s) i /\
        nth_error (decompressed (sd_subs s')) k = nth_error (decompressed (sd_subs s)) i) /\
    length (sd_pos s') = length (survivors (sd_valid s)) /\
    rle_size (sd_subs s') = length (survivors (sd_valid s)) /\
    hb_n (sd_hops s') = length (survivors (sd_valid s)) /\
    (forall f b, nth_error (hb_blocks (sd_hops s)) f = Some b ->
       exists b', nth_error (hb_blocks (sd_hops s')) f = Some b' /\
         forall i j, In (i, j) b' <-> In (i, j) b /\ nth i (sd_valid s) false = true /\ nth j (sd_valid s) false = true).
Proof.
  intros P S s Hv Hwf. eexists. split; [apply remove_invalid_ok; auto|]. simpl.
  destruct Hwf as (H1 & H2 & H3 & H4).
  destruct (rle_filter_labels (sd_valid s) (sd_subs s)) as (d & F & L & _); [congruence|]. rewrite F.
  rewrite rle_size_labels, L. rewrite survivors_length.
  assert (HL : length (sd_valid s) = length (labels (sd_subs s))) by (rewrite <- rle_size_labels; congruence).
  repeat split.
  - apply survivors_mask; auto.
  - rewrite !decompressed_labels, L. rewrite !nth_error_map. f_equal. apply survivors_mask; auto.
  - apply mask_length; auto.
  - apply mask_length; auto.
  - intros f b Hb. exists (filter (kept (sd_valid s)) b). split; [apply map_nth_error; auto|].
    intros i j. rewrite filter_In. unfold kept. simpl. rewrite andb_true_iff. tauto.
Qed.

Lemma remove_invalid_follows : forall {P S} (s : sysdata P S),
  sd_valid s <> [] -> wf_sys s ->
  (forall bl i j, In bl (sd_hops s :: map fst (sd_bounds s)) -> In (i, j) (concat (hb_blocks bl)) ->
     nth i (sd_valid s) false = true -> nth j (sd_valid s) false = true ->
     forall k, k <= Nat.max i j -> nth k (sd_valid s) false = true) ->
  exists s', remove_invalid s = Ok s' /\
    (forall f b b', nth_error (hb_blocks (sd_hops s)) f = Some b ->
       nth_error (hb_blocks (sd_hops s')) f = Some b' -> follows_sites (sd_valid s) b b') /\
    (forall n f h0 h1 x b b', nth_error (sd_bounds s) n = Some (h0, x) ->
       nth_error (sd_bounds s') n = Some (h1, x) ->
       nth_error (hb_blocks h0) f = Some b ->
       nth_error (hb_blocks h1) f = Some b' -> follows_sites (sd_valid s) b b').
Proof.
  intros P S s Hv Hwf H. eexists. split; [apply remove_invalid_ok; auto|]. simpl.
  split.
  - intros f b b' Hb Hb'. apply nth_error_map_some in Hb'. destruct Hb' as (b0 & E & ->).
    assert (b0 = b) by congruence. subst b0. apply remove_follow_gen.
    intros i j Hin. apply (H (sd_hops s)); [left; reflexivity|].
    apply in_concat. exists b. split; auto. eapply nth_error_In; eauto.
  - intros n f h0 h1 x b b' E0 E1 Hb Hb'. apply nth_error_map_some in E1.
    destruct E1 as ((h2, x2) & E2 & E3). simpl in E3. injection E3 as -> ->.
    assert (h2 = h0) by congruence. subst h2. simpl in Hb'.
    apply nth_error_map_some in Hb'. destruct Hb' as (b0 & E & ->).
    assert (b0 = b) by congruence. subst b0. apply remove_follow_gen.
    intros i j Hin. apply (H h0).
    + right. apply in_map_iff. exists (h0, x2). split; auto. eapply nth_error_In; eauto.
    + apply in_concat. exists b. split; auto. eapply nth_error_In; eauto.
Qed.

(* ---------------- C15 ---------------- *)
Lemma table_counts : forall h, in_range_table h ->
  hb_nnz h = length (concat (hb_blocks h)) /\
  exists c, hb_count_neighbors h = Ok c /\ length c = hb_n h /\
    (forall i, nth i c 0 = incident (concat (hb_blocks h)) i) /\
    sum_list c = 2 * hb_nnz h.
Proof.
  intros h H. split; [apply hb_nnz_spec|].
  destruct (hb_count_neighbors_ok h H) as (c & E & L & N).
  exists c. repeat split; auto.
  rewrite sum_nth_seq, L, hb_nnz_spec.
  rewrite (map_ext _ (degree (all_hops h))) by (intros; apply N).
  apply sum_degree. exact H.
Qed.

Lemma table_tocsr : forall h, in_range_table h -> NoDup (concat (hb_blocks h)) ->
  exists m, hb_tocsr h = Ok m /\
    (forall c f, In (c, f) m <-> exists b, nth_error (hb_blocks h) f = Some b /\ In c b) /\
    length m = hb_nnz h.
Proof.
  intros h H N. exists (flat_entries (hb_blocks h) 0). split; [apply hb_tocsr_ok; auto|]. split.
  - intros c f. rewrite flat_entries_in_gen. split.
    + intros (k & b & -> & E & I). eauto.
    + intros (b & E & I). exists f, b. auto.
  - rewrite hb_nnz_spec. unfold flat_entries, all_hops. generalize 0 as s. generalize (hb_blocks h).
    induction l as [|b l IH]; intros s; simpl; auto.
    rewrite !app_length, map_length, IH. reflexivity.
Qed.

(* ---------------- C16 ---------------- *)
Lemma ham_index_partition : forall d,
  (forall i, i < rle_size d -> exists l, to_hamiltonian_indices d i = Ok l /\
       length l = snd (nth i (site_list d) (0, 0))) /\
  (forall i j li lj, to_hamiltonian_indices d i = Ok li -> to_hamiltonian_indices d j = Ok lj ->
       i <> j -> forall x, In x li -> ~ In x lj) /\
  (forall x, x < hamiltonian_size d <-> exists i l, to_hamiltonian_indices d i = Ok l /\ In x l) /\
  (forall i, rle_size d <= i -> to_hamiltonian_indices d i = Throw).
Proof.
  intros d.
  assert (OK : forall i l, to_hamiltonian_indices d i = Ok l ->
     i < rle_size d /\ l = seq (orb_offset d i) (orb_count d i)).
  { intros i l E. destruct (Nat.lt_ge_cases i (rle_size d)) as [Hi|Hi].
    - rewrite to_ham_spec in E by auto. injection E as <-. auto.
    - rewrite to_ham_out_of_range in E by auto. discriminate. }
  assert (MONO : forall i j, i < j -> j < rle_size d -> orb_offset d i + orb_count d i <= orb_offset d j).
  { intros i j Hij Hj. induction j; [lia|].
    destruct (Nat.eq_dec i j) as [->|].
    - rewrite orb_offset_step by lia. lia.
    - rewrite orb_offset_step by lia. specialize (IHj ltac:(lia) ltac:(lia)). lia. }
  repeat split.
  - intros i Hi. rewrite to_ham_spec by auto. eexists. split; [reflexivity|]. rewrite seq_length. reflexivity.
  - intros i j li lj Hi Hj Hne x Hx Hx'.
    apply OK in Hi. apply OK in Hj. destruct Hi as [Hi ->], Hj as [Hj ->].
    apply in_seq in Hx. apply in_seq in Hx'.
    destruct (Nat.lt_ge_cases i j).
    + specialize (MONO i j ltac:(lia) Hj). lia.
    + specialize (MONO j i ltac:(lia) Hi). lia.
  - intros Hx. assert (I : In x (seq 0 (hamiltonian_size d))) by (apply in_seq; lia).
    rewrite <- ham_indices_partition in I. apply in_concat in I. destruct I as (l & Il & Ix).
    apply in_map_iff in Il. destruct Il as (i & <- & Hi). apply in_seq in Hi.
    exists i, (seq (orb_offset d i) (orb_count d i)). split; auto. apply to_ham_spec. lia.
  - intros (i & l & E & Hx). apply OK in E. destruct E as [Hi ->].
    assert (I : In x (seq 0 (hamiltonian_size d))).
    { rewrite <- ham_indices_partition. apply in_concat. eexists. split; [|exact Hx].
      apply in_map_iff. exists i. split; auto. apply in_seq. lia. }
    apply in_seq in I. lia.
  - intros i Hi. apply to_ham_out_of_range; auto.
Qed.

Lemma ham_index_positions : forall {P} d (pos : list P) dflt, length pos = rle_size d ->
  exists ep, expanded_positions d pos dflt = Ok ep /\
    length ep = hamiltonian_size d /\
    forall i l x, to_hamiltonian_indices d i = Ok l -> In x l -> nth_error ep x = nth_error pos i.
Proof.
  intros P d pos dflt H. exists (expand_spec d pos). split; [apply expanded_positions_spec; auto|].
  assert (LEN : length (expand_spec d pos) = hamiltonian_size d).
  { rewrite hamiltonian_size_labels. unfold expand_spec. rewrite rle_size_labels in H.
    revert pos H. generalize (labels d). induction l as [|[a b] l IH]; intros [|p pos] H; simpl in *; try discriminate; auto.
    rewrite app_length, repeat_length, sum_list_cons. simpl. rewrite IH by lia. reflexivity. }
  split; auto. intros i l x E Hx.
  destruct (Nat.lt_ge_cases i (rle_size d)) as [Hi|Hi].
  - rewrite to_ham_spec in E by auto. injection E as <-. apply in_seq in Hx.
    replace x with (orb_offset d i + (x - orb_offset d i)) by lia.
    assert (P0 : P) by (destruct pos; [simpl in H; lia|assumption]).
    rewrite (nth_error_nth' pos P0) by lia.
    rewrite <- (expand_spec_nth d pos i (x - orb_offset d i)) by (auto; lia).
    apply nth_error_nth'. rewrite LEN.
    assert (I : In x (seq 0 (hamiltonian_size d))).
    { rewrite <- ham_indices_partition. apply in_concat. exists (seq (orb_offset d i) (orb_count d i)). split.
      - apply in_map_iff. exists i. split; auto. apply in_seq. lia.
      - apply in_seq. lia. }
    apply in_seq in I. lia.
  - rewrite to_ham_out_of_range in E by auto. discriminate.
Qed.

Lemma ham_index_builder : forall d i l o,
  is_sorted (orbital_counts d) = true ->
  to_hamiltonian_indices d i = Ok l -> o < length l ->
  exists sh, translator_start d (length l) = Ok sh /\
    translated_index_Z sh (length l) o i = Z.of_nat (nth o l 0).
Proof.
  intros d i l o S E Ho.
  destruct (Nat.lt_ge_cases i (rle_size d)) as [Hi|Hi].
  - rewrite to_ham_spec in E by auto. injection E as <-. rewrite seq_length in *.
    rewrite seq_nth by auto. apply translator_agrees; auto. apply is_sorted_sortedP; auto.
  - rewrite to_ham_out_of_range in E by auto. discriminate.
Qed.

(* ---------------- C14, table part ---------------- *)
Lemma append_exact : forall h f rows cols b,
  length rows = length cols -> nth_error (hb_blocks h) f = Some b ->
  exists h' b', hb_append h f rows cols = Ok h' /\
    nth_error (hb_blocks h') f = Some b' /\ NoDup b' /\
    (forall g, g <> f -> nth_error (hb_blocks h') g = nth_error (hb_blocks h) g) /\
    (forall i j, In (i, j) b' <-> In (i, j) b \/ (i <= j /\ requested rows cols i j)).
Proof.
  intros h f rows cols b HL HF.
  destruct (hb_append_ok h f rows cols b HL HF) as (h' & b' & E & _ & _ & E2 & O & N & _ & M).
  exists h', b'. repeat split; auto; intros H.
  - apply M in H. destruct H as [H|((a, c) & Hp & Hu)]; [left; auto|right].
    unfold upper in Hu. simpl in Hu. unfold requested.
    destruct (Nat.ltb_spec c a); injection Hu as -> ->; split; auto; lia.
  - apply M. destruct H as [H|[Hle [H|H]]]; [left; auto|right|right].
    + exists (i, j). split; auto. unfold upper. simpl. destruct (Nat.ltb_spec j i); [lia|reflexivity].
    + exists (j, i). split; auto. unfold upper. simpl. destruct (Nat.ltb_spec i j); [reflexivity|].
      replace i with j by lia. reflexivity.
Qed.
