(* Lemmas about the run-length encoded sublattice table. *)
From Verif Require Import Base Rle.

(** Specification view: one label (family id, orbital count) per site. *)
Definition labels (d : rle) : list (nat * nat) :=
  flat_map (fun e => repeat (e_id e, e_norb e) (e_num e)) d.
Arguments labels : simpl never.

Lemma labels_app : forall d1 d2, labels (d1 ++ d2) = labels d1 ++ labels d2.
Proof. intros; unfold labels. apply flat_map_app. Qed.

Lemma labels_cons : forall e d,
  labels (e :: d) = repeat (e_id e, e_norb e) (e_num e) ++ labels d.
Proof. reflexivity. Qed.

Lemma rle_size_acc : forall d a,
  fold_left (fun n e => n + e_num e) d a = a + rle_size d.
Proof.
  unfold rle_size. induction d as [|e d IH]; intros a; simpl; [lia|].
  rewrite IH, (IH (e_num e)). lia.
Qed.

Lemma rle_size_cons : forall e d, rle_size (e :: d) = e_num e + rle_size d.
Proof. intros. unfold rle_size at 1. simpl. apply rle_size_acc. Qed.

Lemma rle_size_labels : forall d, rle_size d = length (labels d).
Proof.
  induction d as [|e d IH]; [reflexivity|].
  rewrite rle_size_cons, labels_cons, app_length, repeat_length, IH. reflexivity.
Qed.

(** [add] on the plain list. *)
Definition last_ok (d : rle) (id norb : nat) : Prop :=
  forall e d', d = d' ++ [e] -> e_id e = id -> e_norb e = norb.

Lemma rle_add_snoc : forall d e id norb c,
  rle_add (d ++ [e]) id norb c =
  d ++ (if Nat.eqb (e_id e) id then [Elem (e_id e) (e_num e + c) (e_norb e)]
        else [e; Elem id c norb]).
Proof.
  induction d as [|x d IH]; intros; [reflexivity|].
  simpl app. rewrite <- IH. simpl. destruct (d ++ [e]) eqn:E; [|reflexivity].
  destruct d; discriminate.
Qed.

Lemma labels_add : forall d id norb c,
  last_ok d id norb ->
  labels (rle_add d id norb c) = labels d ++ repeat (id, norb) c.
Proof.
  intros d id norb c H.
  destruct (rev d) as [|e r] eqn:E.
  - apply (f_equal (@rev _)) in E. rewrite rev_involutive in E. subst.
    unfold labels. simpl. rewrite app_nil_r. reflexivity.
  - apply (f_equal (@rev _)) in E. rewrite rev_involutive in E. simpl in E. subst.
    rewrite rle_add_snoc, !labels_app.
    destruct (Nat.eqb_spec (e_id e) id) as [He|He].
    + rewrite <- app_assoc. f_equal. unfold labels; simpl. rewrite !app_nil_r.
      rewrite repeat_app. rewrite (H e (rev r) eq_refl He). subst. reflexivity.
    + rewrite <- app_assoc. f_equal. unfold labels. simpl. rewrite !app_nil_r. reflexivity.
Qed.

Lemma length_keep_split : forall {A} n m (k : list A), n + m <= length k ->
  length (firstn n k) = n /\ m <= length (skipn n k).
Proof. intros. rewrite firstn_length, skipn_length. lia. Qed.

Lemma rle_filter_gen : forall d sys ham pre k,
  length pre = sys -> rle_size d = length k ->
  labels (map (fun s => Elem (e_id (it_e s))
             (count_true (firstn (e_num (it_e s)) (skipn (it_sys s) (pre ++ k))))
             (e_norb (it_e s))) (iter_from d sys ham))
  = mask k (labels d).
Proof.
  induction d as [|e d IH]; intros sys ham pre k Hp Hk.
  - destruct k; [reflexivity|discriminate].
  - rewrite rle_size_cons in Hk. simpl iter_from. simpl map. rewrite labels_cons. simpl.
    assert (Hs : skipn sys (pre ++ k) = k).
    { rewrite <- Hp, skipn_app, skipn_all, Nat.sub_diag. reflexivity. }
    rewrite Hs.
    destruct (length_keep_split (e_num e) (rle_size d) k) as [L1 L2]; [lia|].
    transitivity (mask (firstn (e_num e) k ++ skipn (e_num e) k)
                       (repeat (e_id e, e_norb e) (e_num e) ++ labels d));
      [|rewrite firstn_skipn; reflexivity].
    rewrite mask_app by (rewrite repeat_length; auto).
    rewrite mask_repeat by auto. f_equal.
    replace (pre ++ k) with ((pre ++ firstn (e_num e) k) ++ skipn (e_num e) k)
      by (rewrite <- app_assoc, firstn_skipn; reflexivity).
    apply IH.
    + rewrite app_length, L1. lia.
    + rewrite skipn_length. lia.
Qed.

Lemma rle_filter_labels : forall keep d,
  length keep = rle_size d ->
  exists d', rle_filter keep d = Ok d' /\ labels d' = mask keep (labels d) /\
             map e_id d' = map e_id d /\ map e_norb d' = map e_norb d.
Proof.
  intros keep d H. unfold rle_filter.
  destruct (Nat.ltb_spec (length keep) (rle_size d)); [lia|].
  eexists; split; [reflexivity|]. split; [|split].
  - apply (rle_filter_gen d 0 0 [] keep); auto.
  - rewrite map_map. simpl. unfold iter. generalize 0 at 1 as a. generalize 0 as b.
    clear. induction d as [|e d IH]; intros; simpl; f_equal; auto.
  - rewrite map_map. simpl. unfold iter. generalize 0 at 1 as a. generalize 0 as b.
    clear. induction d as [|e d IH]; intros; simpl; f_equal; auto.
Qed.

Lemma set_segment_spec : forall {A} len (pre mid post : list A) x,
  length mid = len ->
  set_segment (pre ++ mid ++ post) (length pre) len x = pre ++ repeat x len ++ post.
Proof.
  induction len as [|len IH]; intros pre mid post x H; destruct mid as [|m mid]; try discriminate.
  - reflexivity.
  - simpl set_segment.
    assert (E : upd (pre ++ (m :: mid) ++ post) (length pre) x = (pre ++ [x]) ++ mid ++ post).
    { clear. induction pre; simpl; f_equal; auto. }
    simpl app in *. rewrite E. replace (S (length pre)) with (length (pre ++ [x])) by (rewrite app_length; simpl; lia).
    rewrite IH by (simpl in H; lia). rewrite <- app_assoc. reflexivity.
Qed.

Lemma decompressed_gen : forall d sys ham pre post,
  length pre = sys -> length post = rle_size d ->
  fold_left (fun arr s => set_segment arr (it_sys s) (e_num (it_e s)) (e_id (it_e s)))
            (iter_from d sys ham) (pre ++ post) = pre ++ map fst (labels d).
Proof.
  induction d as [|e d IH]; intros sys ham pre post Hp Hq; simpl.
  - destruct post; [reflexivity|discriminate].
  - rewrite rle_size_cons in Hq. subst sys.
    rewrite <- (firstn_skipn (e_num e) post).
    rewrite set_segment_spec by (rewrite firstn_length; lia).
    rewrite app_assoc. rewrite IH.
    + rewrite labels_cons, map_app, <- app_assoc. f_equal. f_equal.
      clear. induction (e_num e); simpl; f_equal; auto.
    + rewrite app_length, repeat_length. reflexivity.
    + rewrite skipn_length. lia.
Qed.

Lemma decompressed_labels : forall d, decompressed d = map fst (labels d).
Proof.
  intros. unfold decompressed, iter.
  apply (decompressed_gen d 0 0 [] (repeat 0 (rle_size d))); auto using repeat_length.
Qed.

Lemma rle_roundtrip : forall d,
  rle_of_arrays (alias_ids d) (site_counts d) (orbital_counts d) = Ok d.
Proof.
  unfold alias_ids, site_counts, orbital_counts.
  induction d as [|[i c n] d IH]; [reflexivity|]. simpl. rewrite IH. reflexivity.
Qed.

(* ------------------------------------------------------------------ *)
(* Hamiltonian indices *)

Lemma iter_ham_size_acc : forall d sys ham a,
  fold_left (fun r s => r + ham_size_of s) (iter_from d sys ham) a
  = a + sum_list (map snd (labels d)).
Proof.
  induction d as [|e d IH]; intros sys ham a.
  - simpl. unfold sum_list. simpl. lia.
  - simpl iter_from. simpl fold_left. rewrite IH. rewrite labels_cons, map_app, sum_list_app.
    assert (E : map snd (repeat (e_id e, e_norb e) (e_num e)) = repeat (e_norb e) (e_num e)).
    { clear. induction (e_num e); simpl; f_equal; auto. }
    rewrite E, sum_list_repeat. unfold ham_size_of. simpl. lia.
Qed.

Lemma hamiltonian_size_labels : forall d,
  hamiltonian_size d = sum_list (map snd (labels d)).
Proof. intros. unfold hamiltonian_size, iter. rewrite iter_ham_size_acc. reflexivity. Qed.

Lemma nth_repeat_lt : forall {A} (x d : A) n i, i < n -> nth i (repeat x n) d = x.
Proof. induction n; intros [|i] H; simpl; auto; try lia. apply IHn; lia. Qed.

Lemma skipn_skipn_add : forall {A} a b (l : list A), skipn a (skipn b l) = skipn (a + b) l.
Proof.
  intros A a b. induction b; intros l; [rewrite Nat.add_0_r; reflexivity|].
  rewrite <- plus_n_Sm. destruct l; [rewrite !skipn_nil; reflexivity|]. simpl. apply IHb.
Qed.

(** Offset of site [i]: total number of orbitals of the sites before it. *)
Definition orb_offset (d : rle) (i : nat) : nat :=
  sum_list (map snd (firstn i (labels d))).

Definition orb_count (d : rle) (i : nat) : nat := snd (nth i (labels d) (0, 0)).

Lemma firstn_repeat : forall {A} (x : A) k n, k <= n -> firstn k (repeat x n) = repeat x k.
Proof.
  induction k; intros n H; simpl; [reflexivity|]. destruct n; [lia|]. simpl. f_equal. apply IHk. lia.
Qed.

Lemma to_ham_gen : forall d sys ham i,
  i < rle_size d ->
  exists s, find (fun s => (it_sys s <=? sys + i) && (sys + i <? sys_end s)) (iter_from d sys ham) = Some s
       /\ it_ham s + (sys + i - it_sys s) * e_norb (it_e s)
          = ham + sum_list (map snd (firstn i (labels d)))
       /\ e_norb (it_e s) = snd (nth i (labels d) (0, 0))
       /\ e_id (it_e s) = fst (nth i (labels d) (0, 0)).
Proof.
  induction d as [|e d IH]; intros sys ham i Hi.
  - unfold rle_size in Hi; simpl in Hi; lia.
  - rewrite rle_size_cons in Hi. simpl iter_from.
    simpl find. unfold sys_end at 1. simpl it_sys; simpl it_e.
    destruct (Nat.leb_spec sys (sys + i)) as [Hle|]; [|lia]. simpl andb.
    destruct (Nat.ltb_spec (sys + i) (sys + e_num e)) as [Hlt|Hge].
    + eexists; split; [reflexivity|]. simpl.
      rewrite labels_cons.
      split; [|split].
      * rewrite firstn_app, firstn_repeat by lia. rewrite repeat_length.
        replace (i - e_num e) with 0 by lia. simpl. rewrite app_nil_r.
        replace (sys + i - sys) with i by lia. f_equal.
        assert (E : map snd (repeat (e_id e, e_norb e) i) = repeat (e_norb e) i).
        { clear. induction i; simpl; f_equal; auto. }
        rewrite E, sum_list_repeat. reflexivity.
      * rewrite app_nth1 by (rewrite repeat_length; lia). rewrite nth_repeat_lt.
        { reflexivity. } lia.
      * rewrite app_nth1 by (rewrite repeat_length; lia). rewrite nth_repeat_lt.
        { reflexivity. } lia.
    + destruct (IH (sys + e_num e) (ham + e_num e * e_norb e) (i - e_num e)) as (s & Hf & Ho & Hn & Hid); [lia|].
      replace (sys + e_num e + (i - e_num e)) with (sys + i) in * by lia.
      exists s. split; [exact Hf|]. rewrite labels_cons.
      split; [|split].
      * rewrite Ho. rewrite firstn_app, repeat_length.
        rewrite (firstn_all2 (repeat (e_id e, e_norb e) (e_num e))) by (rewrite repeat_length; lia).
        rewrite map_app, sum_list_app.
        assert (E : map snd (repeat (e_id e, e_norb e) (e_num e)) = repeat (e_norb e) (e_num e)).
        { clear. induction (e_num e); simpl; f_equal; auto. }
        rewrite E, sum_list_repeat. lia.
      * rewrite app_nth2 by (rewrite repeat_length; lia). rewrite repeat_length. exact Hn.
      * rewrite app_nth2 by (rewrite repeat_length; lia). rewrite repeat_length. exact Hid.
Qed.

Lemma to_ham_spec : forall d i, i < rle_size d ->
  to_hamiltonian_indices d i = Ok (seq (orb_offset d i) (orb_count d i)).
Proof.
  intros d i Hi. unfold to_hamiltonian_indices, iter.
  destruct (to_ham_gen d 0 0 i Hi) as (s & Hf & Ho & Hn & _).
  simpl in Hf. rewrite Hf. simpl in Ho. rewrite Ho, Hn. reflexivity.
Qed.

Lemma find_none_iter : forall d sys ham i, sys + rle_size d <= i ->
  find (fun s => (it_sys s <=? i) && (i <? sys_end s)) (iter_from d sys ham) = None.
Proof.
  induction d as [|e d IH]; intros sys ham i H; [reflexivity|].
  rewrite rle_size_cons in H. simpl. unfold sys_end at 1; simpl.
  destruct (Nat.ltb_spec i (sys + e_num e)); [lia|]. rewrite andb_false_r. apply IH. lia.
Qed.

Lemma to_ham_out_of_range : forall d i, rle_size d <= i -> to_hamiltonian_indices d i = Throw.
Proof.
  intros. unfold to_hamiltonian_indices, iter. rewrite find_none_iter; auto.
Qed.

Lemma seq_blocks : forall (l : list nat) start,
  concat (map (fun i => seq (start + sum_list (firstn i l)) (nth i l 0)) (seq 0 (length l)))
  = seq start (sum_list l).
Proof.
  induction l as [|x l IH]; intros start; [reflexivity|].
  simpl length. rewrite sum_list_cons, seq_app.
  simpl seq. simpl map. simpl concat. rewrite sum_list_nil, Nat.add_0_r. f_equal.
  rewrite <- seq_shift, map_map.
  rewrite <- (IH (start + x)). f_equal. apply map_ext. intros i.
  simpl. rewrite sum_list_cons. f_equal. lia.
Qed.

Lemma ham_indices_partition : forall d,
  concat (map (fun i => seq (orb_offset d i) (orb_count d i)) (seq 0 (rle_size d)))
  = seq 0 (hamiltonian_size d).
Proof.
  intros d. rewrite hamiltonian_size_labels, rle_size_labels.
  rewrite <- (seq_blocks (map snd (labels d)) 0). rewrite map_length.
  f_equal. apply map_ext. intros i. unfold orb_offset, orb_count.
  rewrite <- firstn_map. simpl. f_equal.
  symmetry. apply (map_nth snd (labels d) (0, 0) i).
Qed.

(* expanded positions *)
Definition expand_spec {P} (d : rle) (pos : list P) : list P :=
  concat (map (fun pl => repeat (fst pl) (snd (snd pl))) (combine pos (labels d))).

Lemma expand_inner : forall {P} n (pos1 pos2 : list P) norb sys ham (pre post : list P),
  length pos2 = n -> length pos1 = sys -> length pre = ham -> n * norb <= length post ->
  forall rest,
  ofold (fun ep i => obind (aget (pos1 ++ pos2 ++ rest) i) (fun p =>
           Ok (set_segment ep (ham + (i - sys) * norb) norb p)))
        (seq sys n) (pre ++ post)
  = Ok (pre ++ concat (map (fun p => repeat p norb) pos2) ++ skipn (n * norb) post).
Proof.
  intros P n. induction n as [|n IH]; intros pos1 pos2 norb sys ham pre post H2 H1 Hp Hq rest.
  - destruct pos2; [|discriminate]. reflexivity.
  - destruct pos2 as [|p pos2]; [discriminate|]. simpl seq. simpl ofold.
    rewrite (aget_ok _ _ p) by (rewrite !app_length; simpl in *; lia).
    rewrite app_nth2 by lia. rewrite H1, Nat.sub_diag. simpl nth. simpl obind.
    rewrite Nat.add_0_r. simpl in Hq, H2.
    rewrite <- (firstn_skipn norb post). rewrite <- Hp.
    rewrite set_segment_spec by (rewrite firstn_length; lia).
    specialize (IH (pos1 ++ [p]) pos2 norb (S sys) (length pre + norb) (pre ++ repeat p norb) (skipn norb post)).
    rewrite app_assoc.
    transitivity (ofold (fun ep i => obind (aget ((pos1 ++ [p]) ++ pos2 ++ rest) i) (fun p0 =>
       Ok (set_segment ep ((length pre + norb) + (i - S sys) * norb) norb p0))) (seq (S sys) n) ((pre ++ repeat p norb) ++ skipn norb post)).
    { apply ofold_ext_in. intros ep i Hi. apply in_seq in Hi.
      rewrite <- app_assoc. simpl app.
      destruct (aget (pos1 ++ p :: pos2 ++ rest) i); simpl; auto.
      replace (i - sys) with (S (i - S sys)) by lia. simpl.
      rewrite Nat.add_assoc. reflexivity. }
    rewrite IH; try (rewrite ?app_length, ?repeat_length, ?skipn_length; simpl; lia).
    f_equal. simpl map. simpl concat. rewrite skipn_skipn_add, firstn_skipn. rewrite <- !app_assoc.
    replace (n * norb + norb) with (S n * norb) by lia. reflexivity.
Qed.

Lemma expand_outer : forall {P} d (pos1 pos2 : list P) sys ham (pre post : list P),
  length pos1 = sys -> length pos2 = rle_size d -> length pre = ham ->
  length post = sum_list (map snd (labels d)) ->
  fold_left (fun acc s => obind acc (fun ep =>
      ofold (fun ep i => obind (aget (pos1 ++ pos2) i) (fun p =>
                Ok (set_segment ep (it_ham s + (i - it_sys s) * e_norb (it_e s))
                                (e_norb (it_e s)) p)))
            (seq (it_sys s) (e_num (it_e s))) ep)) (iter_from d sys ham) (Ok (pre ++ post))
  = Ok (pre ++ expand_spec d pos2).
Proof.
  intros P. induction d as [|e d IH]; intros pos1 pos2 sys ham pre post H1 H2 Hp Hq.
  - destruct post; [|discriminate]. destruct pos2; [|discriminate]. reflexivity.
  - rewrite rle_size_cons in H2. rewrite labels_cons, map_app, sum_list_app in Hq.
    assert (E : map snd (repeat (e_id e, e_norb e) (e_num e)) = repeat (e_norb e) (e_num e)).
    { clear. induction (e_num e); simpl; f_equal; auto. }
    rewrite E, sum_list_repeat in Hq.
    simpl iter_from. simpl fold_left.
    pose proof (firstn_skipn (e_num e) pos2) as Hsplit.
    set (pa := firstn (e_num e) pos2) in *. set (pb := skipn (e_num e) pos2) in *.
    assert (La : length pa = e_num e) by (unfold pa; rewrite firstn_length; lia).
    assert (Lb : length pb = rle_size d) by (unfold pb; rewrite skipn_length; lia).
    rewrite <- Hsplit.
    rewrite expand_inner by (auto; lia).
    rewrite !app_assoc. rewrite IH.
    + rewrite <- app_assoc. f_equal. f_equal. unfold expand_spec. rewrite labels_cons.
      assert (G : forall (l1 l2 : list P) (m1 m2 : list (nat*nat)), length l1 = length m1 ->
                combine (l1 ++ l2) (m1 ++ m2) = combine l1 m1 ++ combine l2 m2).
      { clear. induction l1; intros l2 [|m m1] m2 H; simpl in *; try discriminate; auto.
        f_equal. apply IHl1. lia. }
      rewrite G by (rewrite repeat_length; auto). rewrite map_app, concat_app. f_equal.
      clear - La. rewrite <- La. clear La. induction pa; simpl; f_equal; auto.
    + rewrite app_length, La. lia.
    + auto.
    + rewrite app_length. rewrite Hp. f_equal. clear - La. rewrite <- La. clear La.
      induction pa; simpl; [reflexivity|]. rewrite app_length, repeat_length, IHpa. reflexivity.
    + rewrite skipn_length. lia.
Qed.

Lemma expanded_positions_spec : forall {P} d (pos : list P) dflt,
  length pos = rle_size d ->
  expanded_positions d pos dflt = Ok (expand_spec d pos).
Proof.
  intros. unfold expanded_positions, iter.
  apply (expand_outer d [] pos 0 0 [] (repeat dflt (hamiltonian_size d))); auto.
  rewrite repeat_length. apply hamiltonian_size_labels.
Qed.

Lemma nth_concat_blocks : forall {P} (pos : list P) (ls : list nat) i o d,
  length pos = length ls -> i < length pos -> o < nth i ls 0 ->
  nth (sum_list (firstn i ls) + o)
      (concat (map (fun pl => repeat (fst pl) (snd pl)) (combine pos ls))) d = nth i pos d.
Proof.
  induction pos as [|p pos IH]; intros [|x ls] i o d HL Hi Ho; simpl in *; try lia; try discriminate.
  destruct i as [|i].
  - simpl. rewrite app_nth1 by (rewrite repeat_length; lia). apply nth_repeat_lt; auto.
  - simpl firstn. rewrite sum_list_cons, app_nth2 by (rewrite repeat_length; lia).
    rewrite repeat_length. replace (x + sum_list (firstn i ls) + o - x) with (sum_list (firstn i ls) + o) by lia.
    apply IH; simpl; lia.
Qed.

Lemma expand_spec_nth : forall {P} d (pos : list P) i o dflt,
  length pos = rle_size d -> i < rle_size d -> o < orb_count d i ->
  nth (orb_offset d i + o) (expand_spec d pos) dflt = nth i pos dflt.
Proof.
  intros P d pos i o dflt HL Hi Ho. unfold expand_spec, orb_offset, orb_count in *.
  rewrite rle_size_labels in *.
  rewrite <- firstn_map.
  assert (E : map (fun pl : P * (nat * nat) => repeat (fst pl) (snd (snd pl))) (combine pos (labels d))
            = map (fun pl => repeat (fst pl) (snd pl)) (combine pos (map snd (labels d)))).
  { clear. revert pos. induction (labels d); intros [|p pos]; simpl; f_equal; auto. }
  rewrite E. apply nth_concat_blocks.
  - rewrite map_length. auto.
  - lia.
  - change 0 with (snd (0, 0)) at 1.
    rewrite (map_nth snd (labels d) (0,0) i). exact Ho.
Qed.

(* ------------------------------------------------------------------ *)
(* IndexTranslator agrees with to_hamiltonian_indices on norb-grouped tables *)


Fixpoint sortedP (l : list nat) : Prop :=
  match l with [] => True | x :: t => (forall y, In y t -> x <= y) /\ sortedP t end.

Lemma is_sorted_sortedP : forall l, is_sorted l = true <-> sortedP l.
Proof.
  induction l as [|x [|y t] IH]; simpl in *; [tauto|split; intros; [split; [intros ? []|auto]|auto]|].
  rewrite andb_true_iff, Nat.leb_le, IH. simpl. split.
  - intros [Hxy [Hy Ht]]. split; [|tauto]. intros z [<-|Hz]; [lia|]. specialize (Hy z Hz). lia.
  - intros [Hx [Hy Ht]]. split; [apply Hx; auto|tauto].
Qed.

Lemma labels_norb_in : forall d i, i < rle_size d ->
  In (snd (nth i (labels d) (0, 0))) (orbital_counts d).
Proof.
  intros d i Hi. rewrite rle_size_labels in Hi.
  assert (Hin : In (nth i (labels d) (0,0)) (labels d)) by (apply nth_In; auto).
  unfold labels in Hin at 2. apply in_flat_map in Hin. destruct Hin as (e & He & Hr).
  apply repeat_spec in Hr. rewrite Hr. simpl. unfold orbital_counts. apply in_map. exact He.
Qed.

Lemma translator_gen : forall d sys ham r n,
  sortedP (orbital_counts d) -> r < rle_size d -> snd (nth r (labels d) (0, 0)) = n ->
  exists k, find (fun s => e_norb (it_e s) =? n) (iter_from d sys ham) = Some k /\
    exists s', it_sys k = sys + s' /\ s' <= r /\
      (forall i, s' <= i -> i <= r -> snd (nth i (labels d) (0, 0)) = n).
Proof.
  induction d as [|e d IH]; intros sys ham r n Hs Hr Hn.
  - unfold rle_size in Hr; simpl in Hr; lia.
  - simpl in Hs. destruct Hs as [He Hs]. rewrite rle_size_cons in Hr. rewrite labels_cons in *.
    simpl. destruct (Nat.eqb_spec (e_norb e) n) as [En|En].
    + eexists; split; [reflexivity|]. exists 0. simpl. split; [lia|]. split; [lia|].
      intros i _ Hi.
      destruct (Nat.lt_ge_cases i (e_num e)) as [Hlt|Hge].
      * rewrite app_nth1 by (rewrite repeat_length; lia). rewrite nth_repeat_lt by lia. exact En.
      * rewrite app_nth2 in * by (rewrite repeat_length; lia). rewrite repeat_length in *.
        clear IH. subst n.
        assert (Hge1 : forall j, j < rle_size d -> e_norb e <= snd (nth j (labels d) (0,0))).
        { intros j Hj. apply He. apply labels_norb_in. exact Hj. }
        assert (Hmono : forall dd i j, sortedP (orbital_counts dd) -> i <= j -> j < rle_size dd ->
                  snd (nth i (labels dd) (0,0)) <= snd (nth j (labels dd) (0,0))).
        { clear. induction dd as [|x dd IHd]; intros i j Hs Hij Hj.
          - unfold rle_size in Hj; simpl in Hj; lia.
          - simpl in Hs; destruct Hs as [Hx Hs]. rewrite rle_size_cons in Hj. rewrite labels_cons.
            destruct (Nat.lt_ge_cases i (e_num x)).
            + rewrite (app_nth1 _ _ (0,0) (n:=i)) by (rewrite repeat_length; lia).
              rewrite nth_repeat_lt by lia. simpl.
              destruct (Nat.lt_ge_cases j (e_num x)).
              * rewrite app_nth1 by (rewrite repeat_length; lia). rewrite nth_repeat_lt by lia. simpl; lia.
              * rewrite app_nth2 by (rewrite repeat_length; lia). rewrite repeat_length.
                apply Hx. apply labels_norb_in. lia.
            + rewrite !app_nth2 by (rewrite repeat_length; lia). rewrite repeat_length.
              apply IHd; auto; lia. }
        specialize (Hmono d (i - e_num e) (r - e_num e) Hs ltac:(lia) ltac:(lia)).
        rewrite <- En in Hmono.
        specialize (Hge1 (i - e_num e) ltac:(lia)). lia.
    + assert (Hge : e_num e <= r).
      { destruct (Nat.lt_ge_cases r (e_num e)); [|auto].
        rewrite app_nth1 in Hn by (rewrite repeat_length; lia).
        rewrite nth_repeat_lt in Hn by lia. simpl in Hn. congruence. }
      rewrite app_nth2 in Hn by (rewrite repeat_length; lia). rewrite repeat_length in Hn.
      destruct (IH (sys + e_num e) (ham + e_num e * e_norb e) (r - e_num e) n Hs ltac:(lia) Hn)
        as (k & Hf & s' & H1 & H2 & H3).
      exists k. split; [exact Hf|]. exists (e_num e + s'). split; [lia|]. split; [lia|].
      intros i Hi1 Hi2. rewrite app_nth2 by (rewrite repeat_length; lia). rewrite repeat_length.
      apply H3; lia.
Qed.

Lemma orb_offset_step : forall d i, i < rle_size d ->
  orb_offset d (S i) = orb_offset d i + orb_count d i.
Proof.
  intros d i Hi. unfold orb_offset, orb_count. rewrite rle_size_labels in Hi.
  revert i Hi. generalize (labels d). induction l as [|x l IH]; intros i Hi; simpl in *; [lia|].
  destruct i; [simpl; rewrite sum_list_cons; simpl; unfold sum_list; simpl; lia|].
  simpl firstn. simpl map. rewrite sum_list_cons. simpl nth. specialize (IH i ltac:(lia)).
  simpl in IH. rewrite sum_list_cons. lia.
Qed.

Lemma orb_offset_const : forall d s k n, s + k <= rle_size d ->
  (forall i, s <= i -> i < s + k -> orb_count d i = n) ->
  orb_offset d (s + k) = orb_offset d s + k * n.
Proof.
  induction k as [|k IH]; intros n Hb H; [rewrite Nat.add_0_r; lia|].
  rewrite <- plus_n_Sm, orb_offset_step by lia.
  rewrite (IH n) by (try lia; intros; apply H; lia).
  rewrite (H (s + k)) by lia. lia.
Qed.

Lemma translator_agrees : forall d r o n,
  sortedP (orbital_counts d) -> r < rle_size d -> orb_count d r = n -> o < n ->
  exists sh, translator_start d n = Ok sh /\
    translated_index_Z sh n o r = Z.of_nat (orb_offset d r + o).
Proof.
  intros d r o n Hs Hr Hn Ho. unfold translator_start, start_index, iter.
  destruct (translator_gen d 0 0 r n Hs Hr Hn) as (k & Hf & s' & H1 & H2 & H3).
  rewrite Hf. simpl. rewrite H1. simpl.
  rewrite to_ham_spec by lia. simpl.
  assert (Hc : orb_count d s' = n) by (apply H3; lia).
  rewrite Hc. rewrite (aget_ok _ _ 0) by (rewrite seq_length; lia). simpl.
  eexists; split; [reflexivity|]. unfold translated_index_Z. simpl.
  rewrite seq_nth by lia.
  assert (E : orb_offset d r = orb_offset d s' + (r - s') * n).
  { replace r with (s' + (r - s')) at 1 by lia. apply orb_offset_const; [lia|].
    intros i Hi1 Hi2. apply H3; lia. }
  rewrite E. nia.
Qed.
