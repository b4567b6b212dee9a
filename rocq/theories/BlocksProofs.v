(* Lemmas about hopping blocks. *)
From Coq Require Import Permutation Sorted.
From Verif Require Import Base Rle RleProofs Blocks.

Lemma osequence_ok : forall {A B} (f : A -> outcome B) (g : A -> B) l,
  (forall a, In a l -> f a = Ok (g a)) -> osequence f l = Ok (map g l).
Proof.
  induction l as [|a l IH]; intros H; simpl; auto.
  rewrite H by (left; auto). simpl. rewrite IH by (intros; apply H; right; auto). reflexivity.
Qed.

Lemma zip_coo_roundtrip : forall b, zip_coo (map fst b) (map snd b) = Ok b.
Proof. induction b as [|[r c] b IH]; simpl; auto. rewrite IH. reflexivity. Qed.

Lemma hb_roundtrip : forall h, hb_deserialize (hb_n h) (hb_serialize h) = Ok h.
Proof.
  intros [n bs]. unfold hb_deserialize, hb_serialize. simpl.
  match goal with |- omap _ ?X = _ => assert (E : X = Ok bs) end.
  { induction bs as [|b bs IH]; simpl; auto. rewrite (zip_coo_roundtrip b). simpl. rewrite IH. reflexivity. }
  rewrite E. reflexivity.
Qed.

Definition all_hops (h : hblocks) : list coo := concat (hb_blocks h).

Lemma hb_nnz_spec : forall h, hb_nnz h = length (all_hops h).
Proof.
  intros [n bs]. unfold hb_nnz, all_hops. simpl.
  assert (G : forall l a, fold_left (fun n (b : list coo) => n + length b) l a = a + length (concat l)).
  { induction l as [|b l IH]; intros a; simpl; [lia|]. rewrite IH, app_length. lia. }
  apply (G bs 0).
Qed.

Definition in_range (n : nat) (c : coo) : Prop := fst c < n /\ snd c < n.

(** Number of stored hopping ends at site [i]. *)
Definition degree (l : list coo) (i : nat) : nat :=
  countb (fun c => Nat.eqb (fst c) i) l + countb (fun c => Nat.eqb (snd c) i) l.

Lemma degree_cons : forall c l i,
  degree (c :: l) i = b2n (Nat.eqb (fst c) i) + b2n (Nat.eqb (snd c) i) + degree l i.
Proof.
  intros. unfold degree, countb. simpl.
  destruct (fst c =? i), (snd c =? i); simpl; lia.
Qed.

Lemma degree_app : forall l1 l2 i, degree (l1 ++ l2) i = degree l1 i + degree l2 i.
Proof. intros. unfold degree, countb. rewrite !filter_app, !app_length. lia. Qed.

Lemma incr_ok : forall counts i, i < length counts ->
  exists c', incr counts i = Ok c' /\ length c' = length counts /\
    forall j, nth j c' 0 = nth j counts 0 + b2n (Nat.eqb i j).
Proof.
  intros counts i H. unfold incr. rewrite (aget_ok _ _ 0 H). simpl.
  eexists; split; [reflexivity|]. split; [apply upd_length|].
  intros j. rewrite nth_upd by auto. destruct (Nat.eqb_spec i j); subst; unfold b2n; lia.
Qed.

Lemma incr_ub : forall counts i, length counts <= i -> incr counts i = UB.
Proof.
  intros. unfold incr, aget. rewrite (proj2 (nth_error_None _ _)) by auto. reflexivity.
Qed.

Lemma count_block_ok : forall b counts,
  Forall (in_range (length counts)) b ->
  exists c', ofold (fun counts c => obind (incr counts (fst c)) (fun counts' => incr counts' (snd c))) b counts = Ok c'
    /\ length c' = length counts /\ forall j, nth j c' 0 = nth j counts 0 + degree b j.
Proof.
  induction b as [|c b IH]; intros counts F.
  - exists counts. simpl. split; [reflexivity|]. split; [reflexivity|]. intros; unfold degree, countb; simpl; lia.
  - inversion F as [|? ? [H1 H2] Hb]; subst. simpl ofold.
    destruct (incr_ok counts (fst c) H1) as (c1 & E1 & L1 & N1).
    rewrite E1. simpl. rewrite <- L1 in H2.
    destruct (incr_ok c1 (snd c) H2) as (c2 & E2 & L2 & N2).
    rewrite E2. simpl.
    destruct (IH c2) as (c3 & E3 & L3 & N3); [rewrite L2, L1; auto|].
    exists c3. split; [auto|]. split; [lia|].
    intros j. rewrite N3, N2, N1, degree_cons. lia.
Qed.

Lemma count_blocks_ok : forall bs counts,
  Forall (in_range (length counts)) (concat bs) ->
  exists c', ofold (fun counts b => ofold (fun counts c => obind (incr counts (fst c)) (fun counts' => incr counts' (snd c))) b counts) bs counts = Ok c'
    /\ length c' = length counts /\ forall j, nth j c' 0 = nth j counts 0 + degree (concat bs) j.
Proof.
  induction bs as [|b bs IH]; intros counts F.
  - exists counts. simpl. split; [reflexivity|]. split; [reflexivity|]. intros; unfold degree, countb; simpl; lia.
  - simpl in F. apply Forall_app in F. destruct F as [Fb Fs].
    simpl ofold. destruct (count_block_ok b counts Fb) as (c1 & E1 & L1 & N1).
    rewrite E1. simpl. destruct (IH c1) as (c2 & E2 & L2 & N2); [rewrite L1; auto|].
    exists c2. split; [auto|]. split; [lia|]. intros j. rewrite N2, N1. simpl. rewrite degree_app. lia.
Qed.

Lemma hb_count_neighbors_ok : forall h,
  Forall (in_range (hb_n h)) (all_hops h) ->
  exists c, hb_count_neighbors h = Ok c /\ length c = hb_n h /\
    forall i, nth i c 0 = degree (all_hops h) i.
Proof.
  intros h F. unfold hb_count_neighbors.
  destruct (count_blocks_ok (hb_blocks h) (repeat 0 (hb_n h))) as (c & E & L & N).
  { rewrite repeat_length. exact F. }
  exists c. split; auto. rewrite repeat_length in L. split; auto.
  intros i. rewrite N. unfold all_hops. assert (nth i (repeat 0 (hb_n h)) 0 = 0).
  { clear. generalize (hb_n h). intros n; revert i. induction n; destruct i; simpl; auto. }
  lia.
Qed.

Lemma sum_nth_seq : forall l, sum_list l = sum_list (map (fun i => nth i l 0) (seq 0 (length l))).
Proof.
  induction l as [|x l IH]; [reflexivity|]. simpl length. simpl seq. simpl map.
  rewrite !sum_list_cons. f_equal. rewrite <- seq_shift, map_map. exact IH.
Qed.

Lemma sum_b2n_eq : forall n k, sum_list (map (fun i => b2n (Nat.eqb k i)) (seq 0 n)) = b2n (k <? n).
Proof.
  induction n as [|n IH]; intros k; [reflexivity|].
  rewrite seq_S, map_app, sum_list_app, IH. simpl. rewrite sum_list_cons. unfold sum_list; simpl.
  destruct (Nat.ltb_spec k n), (Nat.eqb_spec k n), (Nat.ltb_spec k (S n)); simpl; lia.
Qed.

Lemma sum_map_add : forall {A} (f g : A -> nat) l,
  sum_list (map (fun x => f x + g x) l) = sum_list (map f l) + sum_list (map g l).
Proof.
  induction l as [|x l IH]; [reflexivity|]. simpl. rewrite !sum_list_cons, IH. lia.
Qed.

Lemma sum_degree : forall n l, Forall (in_range n) l ->
  sum_list (map (degree l) (seq 0 n)) = 2 * length l.
Proof.
  induction l as [|c l IH]; intros F.
  - assert (E : map (degree []) (seq 0 n) = repeat 0 n).
    { generalize 0 at 1 as s. induction n; intros; simpl; f_equal; auto. }
    rewrite E, sum_list_repeat. simpl. lia.
  - inversion F as [|? ? [H1 H2] Fl]; subst.
    rewrite (map_ext _ _ (fun i => degree_cons c l i)).
    rewrite !sum_map_add, !sum_b2n_eq, IH by auto.
    rewrite (proj2 (Nat.ltb_lt _ _) H1), (proj2 (Nat.ltb_lt _ _) H2). simpl. lia.
Qed.

(* ------------------------------------------------------------------ *)
(* append *)

Lemma coo_eqb_spec : forall a b, reflect (a = b) (coo_eqb a b).
Proof.
  intros [a1 a2] [b1 b2]. unfold coo_eqb; simpl.
  destruct (Nat.eqb_spec a1 b1), (Nat.eqb_spec a2 b2); simpl; constructor; congruence.
Qed.

Lemma coo_leb_total : forall a b, coo_leb a b = false -> coo_leb b a = true.
Proof.
  intros [a1 a2] [b1 b2]. unfold coo_leb; simpl. intros H.
  apply orb_false_iff in H. destruct H as [H1 H2]. apply Nat.ltb_ge in H1.
  apply andb_false_iff in H2. apply orb_true_iff.
  destruct (Nat.ltb_spec b1 a1); [left; reflexivity|]. right.
  assert (a1 = b1) by lia. subst. rewrite Nat.eqb_refl in *. simpl.
  destruct H2 as [H2|H2]; [discriminate|]. apply Nat.leb_gt in H2. apply Nat.leb_le. lia.
Qed.

Lemma coo_leb_antisym : forall a b, coo_leb a b = true -> coo_leb b a = true -> a = b.
Proof.
  intros [a1 a2] [b1 b2]. unfold coo_leb; simpl. rewrite !orb_true_iff, !andb_true_iff, !Nat.ltb_lt, !Nat.eqb_eq, !Nat.leb_le.
  intros. f_equal; lia.
Qed.

Lemma coo_leb_trans : forall a b c, coo_leb a b = true -> coo_leb b c = true -> coo_leb a c = true.
Proof.
  intros [a1 a2] [b1 b2] [c1 c2]. unfold coo_leb; simpl. rewrite !orb_true_iff, !andb_true_iff, !Nat.ltb_lt, !Nat.eqb_eq, !Nat.leb_le. lia.
Qed.

Definition cle (a b : coo) : Prop := coo_leb a b = true.

Lemma insert_coo_perm : forall c l, Permutation (c :: l) (insert_coo c l).
Proof.
  induction l as [|x l IH]; simpl; auto. destruct (coo_leb c x); auto.
  rewrite perm_swap. apply perm_skip. exact IH.
Qed.

Lemma sort_coo_perm : forall l, Permutation l (sort_coo l).
Proof.
  induction l as [|x l IH]; simpl; auto. rewrite <- insert_coo_perm. apply perm_skip. exact IH.
Qed.

Lemma insert_coo_sorted : forall c l, StronglySorted cle l -> StronglySorted cle (insert_coo c l).
Proof.
  induction l as [|x l IH]; intros H; simpl; [repeat constructor|].
  inversion H as [|? ? Hs Hf]; subst.
  destruct (coo_leb c x) eqn:E.
  - constructor; auto. constructor; auto.
    eapply Forall_impl; [|exact Hf]. intros a Ha. unfold cle in *. eapply coo_leb_trans; eauto.
  - constructor; auto. apply (Permutation_Forall (insert_coo_perm c l)).
    constructor; auto. apply coo_leb_total; auto.
Qed.

Lemma sort_coo_sorted : forall l, StronglySorted cle (sort_coo l).
Proof. induction l; simpl; [constructor|]. apply insert_coo_sorted; auto. Qed.

Lemma unique_coo_in : forall l x, In x (unique_coo l) <-> In x l.
Proof.
  induction l as [|a [|b t] IH]; intros x; try tauto.
  change (unique_coo (a :: b :: t)) with (if coo_eqb a b then unique_coo (b :: t) else a :: unique_coo (b :: t)).
  destruct (coo_eqb_spec a b) as [->|Hne].
  - rewrite IH. simpl. tauto.
  - simpl In at 1. rewrite IH. simpl. tauto.
Qed.

Lemma unique_coo_nodup : forall l, StronglySorted cle l -> NoDup (unique_coo l) /\ StronglySorted cle (unique_coo l).
Proof.
  induction l as [|a [|b t] IH]; intros H.
  - split; constructor.
  - split; [repeat constructor; auto|exact H].
  - inversion H as [|? ? Hs Hf]; subst. destruct (IH Hs) as [IHn IHs].
    change (unique_coo (a :: b :: t)) with (if coo_eqb a b then unique_coo (b :: t) else a :: unique_coo (b :: t)).
    destruct (coo_eqb_spec a b) as [->|Hne]; [split; auto|].
    assert (Hf' : Forall (cle a) (unique_coo (b :: t))).
    { apply Forall_forall. intros x Hx. apply (proj1 (unique_coo_in _ _)) in Hx. rewrite Forall_forall in Hf. apply Hf. exact Hx. }
    split; [|constructor; auto].
    constructor; auto. intros Hin. apply (proj1 (unique_coo_in _ _)) in Hin.
    apply Hne. destruct Hin as [|Hin]; [congruence|].
    (* a <= b <= a *)
    apply coo_leb_antisym; [inversion Hf; auto|].
    inversion Hs as [|? ? Hs' Hf2]; subst. rewrite Forall_forall in Hf2. apply Hf2. exact Hin.
Qed.

Lemma hb_append_mismatch : forall h f rows cols,
  length rows <> length cols -> hb_append h f rows cols = Throw.
Proof.
  intros. unfold hb_append. destruct (Nat.eqb_spec (length rows) (length cols)); [contradiction|reflexivity].
Qed.

Lemma hb_append_ok : forall h f rows cols b,
  length rows = length cols -> nth_error (hb_blocks h) f = Some b ->
  exists h' b', hb_append h f rows cols = Ok h' /\
    hb_n h' = hb_n h /\ length (hb_blocks h') = length (hb_blocks h) /\
    nth_error (hb_blocks h') f = Some b' /\
    (forall g, g <> f -> nth_error (hb_blocks h') g = nth_error (hb_blocks h) g) /\
    NoDup b' /\ StronglySorted cle b' /\
    (forall c, In c b' <-> In c b \/ exists p, In p (combine rows cols) /\ c = upper p).
Proof.
  intros h f rows cols b HL Hb. unfold hb_append.
  rewrite HL, Nat.eqb_refl. simpl. unfold aget. rewrite Hb. simpl.
  eexists _, _. split; [reflexivity|]. simpl.
  assert (Hf : f < length (hb_blocks h)) by (apply nth_error_Some; congruence).
  split; auto. split; [apply upd_length|]. split; [apply nth_error_upd_eq; auto|].
  split; [intros; apply nth_error_upd_neq; auto|].
  pose proof (unique_coo_nodup _ (sort_coo_sorted (b ++ map upper (combine rows cols)))) as [N S].
  split; auto. split; auto.
  intros c. rewrite unique_coo_in.
  split.
  - intros H. apply (Permutation_in _ (Permutation_sym (sort_coo_perm _))) in H.
    apply in_app_iff in H. destruct H as [H|H]; auto. right.
    apply in_map_iff in H. destruct H as (p & Hp & Hi). exists p; auto.
  - intros H. apply (Permutation_in _ (sort_coo_perm _)). apply in_app_iff.
    destruct H as [H|(p & Hi & ->)]; auto. right. apply in_map; auto.
Qed.

(* ------------------------------------------------------------------ *)
(* filter *)

Definition kept (keep : list bool) (c : coo) : bool := nth (fst c) keep false && nth (snd c) keep false.

Lemma ofilter_ok : forall keep b, Forall (in_range (length keep)) b ->
  ofilter keep b = Ok (filter (kept keep) b).
Proof.
  unfold ofilter. induction b as [|c b IH]; intros F; [reflexivity|].
  inversion F as [|? ? [H1 H2] Fb]; subst. simpl fold_right. rewrite IH by auto. simpl.
  rewrite (aget_ok _ _ false H1). simpl. replace (kept keep c) with (nth (fst c) keep false && nth (snd c) keep false) by reflexivity.
  destruct (nth (fst c) keep false); simpl; [|reflexivity].
  rewrite (aget_ok _ _ false H2). simpl. destruct (nth (snd c) keep false); reflexivity.
Qed.

Lemma hb_filter_ok : forall keep h, Forall (in_range (length keep)) (all_hops h) ->
  hb_filter keep h = Ok (HB (count_true keep) (map (filter (kept keep)) (hb_blocks h))).
Proof.
  intros keep h F. unfold hb_filter. rewrite (osequence_ok _ (filter (kept keep))); [reflexivity|].
  intros b Hb. apply ofilter_ok. apply Forall_forall. intros c Hc.
  rewrite Forall_forall in F. apply F. unfold all_hops. apply in_concat. eauto.
Qed.

(** New number of the kept site [i]. *)
Definition new_index (keep : list bool) (i : nat) : nat := count_true (firstn i keep).

Definition renumber (keep : list bool) (c : coo) : coo := (new_index keep (fst c), new_index keep (snd c)).

Lemma new_index_nth : forall {A} keep (l : list A) i d, length keep = length l ->
  nth i keep false = true -> nth (new_index keep i) (mask keep l) d = nth i l d.
Proof.
  unfold new_index. induction keep as [|k keep IH]; intros [|x l] i d HL Hk; simpl in *; try discriminate; try (destruct i; discriminate).
  destruct i; simpl in *.
  - subst k. reflexivity.
  - rewrite count_true_cons. destruct k; simpl; apply IH; auto; lia.
Qed.

Lemma new_index_lt : forall keep i, nth i keep false = true -> new_index keep i < count_true keep.
Proof.
  unfold new_index. induction keep as [|k keep IH]; intros i H; [destruct i; discriminate|].
  destruct i; simpl in *; rewrite ?count_true_cons.
  - subst. simpl. unfold count_true, sum_list. simpl. lia.
  - specialize (IH i H). lia.
Qed.

Lemma new_index_suffix : forall k m i, i < k -> new_index (repeat true k ++ repeat false m) i = i.
Proof.
  unfold new_index. induction k; intros m i H; [lia|]. destruct i; [reflexivity|].
  simpl. rewrite count_true_cons. simpl. rewrite IHk by lia. reflexivity.
Qed.

Lemma kept_suffix : forall k m i, nth i (repeat true k ++ repeat false m) false = true -> i < k.
Proof.
  induction k; intros m i H; simpl in *.
  - exfalso. revert i H. induction m; intros [|i] H; simpl in *; try discriminate. eapply IHm; eauto.
  - destruct i; [lia|]. apply IHk in H. lia.
Qed.

(* ------------------------------------------------------------------ *)
(* tocsr *)

Definition flat_entries (bs : list (list coo)) (s : nat) : list (coo * nat) :=
  concat (map (fun bf => map (fun c => (c, snd bf)) (fst bf)) (combine bs (seq s (length bs)))).

Lemma csr_block_ok : forall n b f m,
  Forall (in_range n) b -> NoDup (map fst m ++ b) ->
  ofold (fun m c => csr_insert n m c f) b m = Ok (m ++ map (fun c => (c, f)) b).
Proof.
  induction b as [|c b IH]; intros f m F N; simpl; [rewrite app_nil_r; reflexivity|].
  inversion F as [|? ? [H1 H2] Fb]; subst.
  assert (Hni : existsb (fun e => coo_eqb (fst e) c) m = false).
  { destruct (existsb _ m) eqn:E; auto. exfalso. apply existsb_exists in E. destruct E as (e & He & Hc).
    destruct (coo_eqb_spec (fst e) c); [|discriminate]. subst.
    apply NoDup_remove_2 in N. apply N. apply in_app_iff. left. apply in_map. exact He. }
  unfold csr_insert at 1. rewrite Hni. simpl.
  rewrite (proj2 (Nat.ltb_lt _ _) H1), (proj2 (Nat.ltb_lt _ _) H2). simpl.
  rewrite IH; auto.
  - rewrite <- app_assoc. reflexivity.
  - rewrite map_app. simpl. rewrite <- app_assoc. exact N.
Qed.

Lemma csr_blocks_ok : forall n bs s m,
  Forall (in_range n) (concat bs) -> NoDup (map fst m ++ concat bs) ->
  ofold (fun m bf => ofold (fun m c => csr_insert n m c (snd bf)) (fst bf) m)
        (combine bs (seq s (length bs))) m = Ok (m ++ flat_entries bs s).
Proof.
  induction bs as [|b bs IH]; intros s m F N; simpl; [rewrite app_nil_r; reflexivity|].
  simpl in F, N. apply Forall_app in F. destruct F as [Fb Fs].
  rewrite csr_block_ok; auto.
  - simpl. rewrite IH; auto.
    + rewrite <- app_assoc. reflexivity.
    + rewrite map_app, map_map. simpl. rewrite map_id, <- app_assoc. exact N.
  - rewrite app_assoc in N. apply NoDup_app_l in N. exact N.
Qed.

Lemma hb_tocsr_ok : forall h, Forall (in_range (hb_n h)) (all_hops h) -> NoDup (all_hops h) ->
  hb_tocsr h = Ok (flat_entries (hb_blocks h) 0).
Proof.
  intros h F N. unfold hb_tocsr. rewrite csr_blocks_ok; auto.
Qed.

Lemma flat_entries_in_gen : forall bs s c f,
  In (c, f) (flat_entries bs s) <-> exists k b, f = s + k /\ nth_error bs k = Some b /\ In c b.
Proof.
  induction bs as [|b bs IH]; intros s c f.
  - simpl. split; [intros []|]. intros (k & b & _ & H & _). destruct k; discriminate.
  - unfold flat_entries. simpl. rewrite in_app_iff.
    change (concat (map (fun bf => map (fun c => (c, snd bf)) (fst bf)) (combine bs (seq (S s) (length bs))))) with (flat_entries bs (S s)).
    rewrite IH. split.
    + intros [H|(k & b' & -> & Hk & Hc)].
      * apply in_map_iff in H. destruct H as (c' & Heq & Hc). inversion Heq; subst.
        exists 0, b. split; [lia|]. auto.
      * exists (S k), b'. split; [lia|]. auto.
    + intros (k & b' & -> & Hk & Hc). destruct k as [|k]; simpl in Hk.
      * left. inversion Hk; subst. apply in_map_iff. exists c. rewrite Nat.add_0_r. auto.
      * right. exists k, b'. split; [lia|]. auto.
Qed.
