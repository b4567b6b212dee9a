(* The entries emitted by the Hamiltonian builder for a consistent system, and the matrix
   elements they add up to. *)
From Verif Require Import Base Rle RleProofs Blocks BlocksProofs TablesSpec Scalar Foundation Lattice Hamiltonian HamiltonianSpec HamProofs.
From Coq Require Import Permutation.

Section Rows.
  Lemma row_of_offset : forall d s o, row_of d s o = orb_offset d s + o. Proof. reflexivity. Qed.
  Lemma norb_at_count : forall d s, norb_at d s = orb_count d s. Proof. reflexivity. Qed.

  Variable d : rle.

  Lemma row_mono : forall s t, s < t -> t < rle_size d -> orb_offset d s + orb_count d s <= orb_offset d t.
  Proof.
    intros i j Hij Hj. induction j; [lia|].
    destruct (Nat.eq_dec i j) as [->|].
    - rewrite orb_offset_step by lia. lia.
    - rewrite orb_offset_step by lia. specialize (IHj ltac:(lia) ltac:(lia)). lia.
  Qed.

  Lemma row_of_inj : forall s i t j, s < rle_size d -> t < rle_size d -> i < norb_at d s -> j < norb_at d t ->
    row_of d s i = row_of d t j -> s = t /\ i = j.
  Proof.
    intros s i t j Hs Ht Hi Hj E. rewrite !row_of_offset in E. rewrite norb_at_count in *.
    destruct (Nat.lt_trichotomy s t) as [H|[->|H]].
    - pose proof (row_mono s t H Ht). lia.
    - split; [reflexivity|lia].
    - pose proof (row_mono t s H Hs). lia.
  Qed.

  Lemma row_of_lt : forall s i, s < rle_size d -> i < norb_at d s -> row_of d s i < hamiltonian_size d.
  Proof.
    intros s i Hs Hi. rewrite row_of_offset. rewrite norb_at_count in Hi.
    assert (I : In (orb_offset d s + i) (seq 0 (hamiltonian_size d))).
    { rewrite <- ham_indices_partition. apply in_concat. exists (seq (orb_offset d s) (orb_count d s)). split.
      - apply in_map_iff. exists s. split; auto. apply in_seq. lia.
      - apply in_seq. lia. }
    apply in_seq in I. lia.
  Qed.

  Lemma row_of_onto : forall a, a < hamiltonian_size d -> exists s i, s < rle_size d /\ i < norb_at d s /\ a = row_of d s i.
  Proof.
    intros a Ha. assert (I : In a (seq 0 (hamiltonian_size d))) by (apply in_seq; lia).
    rewrite <- ham_indices_partition in I. apply in_concat in I. destruct I as (l & Hl & Hx).
    apply in_map_iff in Hl. destruct Hl as (s & <- & Hs). apply in_seq in Hs. apply in_seq in Hx.
    exists s, (a - orb_offset d s). rewrite norb_at_count, row_of_offset. lia.
  Qed.

  Lemma norb_mono : forall dd i j, sortedP (orbital_counts dd) -> i <= j -> j < rle_size dd ->
    norb_at dd i <= norb_at dd j.
  Proof.
    induction dd as [|x dd IHd]; intros i j Hs Hij Hj.
    - unfold rle_size in Hj; simpl in Hj; lia.
    - unfold norb_at. change (site_list (x :: dd)) with (labels (x :: dd)). simpl in Hs; destruct Hs as [Hx Hs]. rewrite rle_size_cons in Hj. rewrite labels_cons.
      destruct (Nat.lt_ge_cases i (e_num x)).
      + rewrite (app_nth1 _ _ (0,0) (n:=i)) by (rewrite repeat_length; lia).
        rewrite nth_repeat_lt by lia. cbn [snd].
                destruct (Nat.lt_ge_cases j (e_num x)).
        * rewrite app_nth1 by (rewrite repeat_length; lia). rewrite nth_repeat_lt by lia. simpl; lia.
        * rewrite app_nth2 by (rewrite repeat_length; lia). rewrite repeat_length.
          apply Hx. apply labels_norb_in. lia.
      + rewrite !app_nth2 by (rewrite repeat_length; lia). rewrite repeat_length.
        apply IHd; auto; lia.
  Qed.

  (** With 1-orbital sites first, the row of a 1-orbital site is its index. *)
  Lemma row_single : sortedP (orbital_counts d) -> (forall e, In e d -> 0 < e_norb e) -> forall s, s < rle_size d -> norb_at d s = 1 -> row_of d s 0 = s.
  Proof.
    intros Hs Hp s Hl Hn. rewrite row_of_offset, Nat.add_0_r.
    replace s with (0 + s) at 1 by lia. rewrite (orb_offset_const d 0 s 1).
    - unfold orb_offset. cbn. lia.
    - lia.
    - intros t _ Ht. rewrite <- norb_at_count. pose proof (norb_mono d t s Hs ltac:(lia) Hl).
      pose proof (labels_norb_in d t ltac:(lia)) as I. fold (orb_count d t) in I. unfold orbital_counts in I.
      apply in_map_iff in I. destruct I as (e & E & He). apply Hp in He.
      change (orb_count d t) with (norb_at d t) in E. lia.
  Qed.
End Rows.

(** The sublattice iterator visits the sites in order. *)
Lemma iter_facts : forall d sys ham s, In s (iter_from d sys ham) ->
  In (it_e s) d /\ sys <= it_sys s /\ it_sys s - sys + e_num (it_e s) <= rle_size d /\
  it_ham s = ham + orb_offset d (it_sys s - sys) /\
  (forall k, k < e_num (it_e s) -> nth (it_sys s - sys + k) (labels d) (0, 0) = (e_id (it_e s), e_norb (it_e s))).
Proof.
  induction d as [|e d IH]; intros sys ham s H; [destruct H|]. cbn [iter_from In] in H. rewrite rle_size_cons.
  destruct H as [<-|H].
  - cbn [it_e it_sys it_ham]. rewrite Nat.sub_diag. split; [left; auto|]. split; [lia|]. split; [lia|]. split.
    + unfold orb_offset. cbn. lia.
    + intros k Hk. rewrite labels_cons, app_nth1 by (rewrite repeat_length; lia). apply nth_repeat_lt. lia.
  - apply IH in H. destruct H as (H1 & H2 & H3 & H4 & H5). split; [right; auto|]. split; [lia|]. split; [lia|]. split.
    + rewrite H4. unfold orb_offset. rewrite labels_cons, firstn_app, repeat_length, map_app, sum_list_app.
      rewrite (firstn_all2 (repeat _ _)) by (rewrite repeat_length; lia).
      assert (E : map snd (repeat (e_id e, e_norb e) (e_num e)) = repeat (e_norb e) (e_num e)).
      { clear. induction (e_num e); simpl; f_equal; auto. }
      rewrite E, sum_list_repeat. replace (it_sys s - sys - e_num e) with (it_sys s - (sys + e_num e)) by lia. lia.
    + intros k Hk. rewrite labels_cons, app_nth2 by (rewrite repeat_length; lia). rewrite repeat_length.
      replace (it_sys s - sys + k - e_num e) with (it_sys s - (sys + e_num e) + k) by lia. apply H5. lia.
Qed.

Lemma iter_sites : forall d sys ham,
  flat_map (fun s => seq (it_sys s) (e_num (it_e s))) (iter_from d sys ham) = seq sys (rle_size d).
Proof.
  induction d as [|e d IH]; intros sys ham; [reflexivity|]. cbn [iter_from flat_map it_sys it_e].
  rewrite IH, rle_size_cons. symmetry. apply seq_app.
Qed.

Section E.
  Variable R : scalar.
  Variable V : Type.
  Add Ring Rring3 : (k_ring R).
  Notation elem := (@elem R).

  Lemma mat_same_refl : forall A : mat R, mat_same A A. Proof. intros A; repeat split; auto. Qed.
  Lemma mat_same_trans : forall A B C : mat R, mat_same A B -> mat_same B C -> mat_same A C.
  Proof.
    intros A B C (H1 & H2 & H3) (K1 & K2 & K3). split; [congruence|]. split; [congruence|].
    intros i j Hi Hj. rewrite H3 by auto. apply K3; congruence.
  Qed.

  (** One matrix of a three-dimensional buffer. *)
  Definition view (rows cols n : nat) (buf : list R) (k : nat) : mat R := Mat rows cols (fun i j => elem cols n buf i j k).

  Lemma hop_mods_run : forall ms gs, Forall2 hop_follows ms gs ->
    forall rows cols (ps qs : list V) nm buf (A : nat -> mat R),
    length ps = length qs -> length buf = rows * cols * length ps ->
    (forall k, k < length ps -> mat_same (view rows cols (length ps) buf k) (A k)) ->
    exists buf', ofold (fun b m => in_place (m rows cols ps qs nm) b) ms buf = Ok buf' /\ length buf' = length buf /\
      forall k p q, nth_error ps k = Some p -> nth_error qs k = Some q ->
        mat_same (view rows cols (length ps) buf' k) (fold_left (fun A g => g nm p q A) gs (A k)).
  Proof.
    intros ms gs H. induction H as [|m g ms gs Hm Hms IH]; intros rows cols ps qs nm buf A Hl Hb HA.
    - exists buf. split; [reflexivity|]. split; [reflexivity|]. intros k p q Hp _. cbn [fold_left]. apply HA.
      apply nth_error_Some. congruence.
    - destruct Hm as (Hg & Hf). destruct (Hf rows cols ps qs nm buf Hl Hb) as (b1 & E1 & L1 & F1).
      cbn [ofold]. unfold in_place at 1. rewrite E1. cbn [obind]. rewrite L1, Nat.eqb_refl. cbn [obind].
      set (A1 := fun k => match nth_error ps k, nth_error qs k with Some p, Some q => g nm p q (A k) | _, _ => A k end).
      destruct (IH rows cols ps qs nm b1 A1 Hl) as (b2 & E2 & L2 & F2); [congruence| |].
      + intros k Hk. destruct (nth_error ps k) as [p|] eqn:Ep; [|apply nth_error_None in Ep; lia].
        destruct (nth_error qs k) as [q|] eqn:Eq; [|apply nth_error_None in Eq; lia].
        unfold A1. rewrite Ep, Eq.
        destruct (Hg nm p q (view rows cols (length ps) buf k) (A k) (HA k Hk)) as (G1 & G2 & G3).
        apply mat_same_trans with (g nm p q (view rows cols (length ps) buf k)); auto.
        split; [symmetry; exact G2|]. split; [symmetry; exact G3|]. intros i j Hi Hj. cbn [m_at view].
        apply (F1 i j k p q); auto.
      + exists b2. split; [exact E2|]. split; [congruence|]. intros k p q Hp Hq. cbn [fold_left].
        specialize (F2 k p q Hp Hq). unfold A1 in F2. rewrite Hp, Hq in F2. exact F2.
  Qed.

  Lemma os_mods_run : forall ms gs, Forall2 os_follows ms gs ->
    forall n (ps : list V) nm buf (A : nat -> mat R),
    length buf = length ps * n * n ->
    (forall k, k < length ps -> mat_same (view n n (length ps) buf k) (A k)) ->
    exists buf', ofold (fun b m => in_place (m n ps nm) b) ms buf = Ok buf' /\ length buf' = length buf /\
      forall k p, nth_error ps k = Some p ->
        mat_same (view n n (length ps) buf' k) (fold_left (fun A g => g nm p A) gs (A k)).
  Proof.
    intros ms gs H. induction H as [|m g ms gs Hm Hms IH]; intros n ps nm buf A Hb HA.
    - exists buf. split; [reflexivity|]. split; [reflexivity|]. intros k p Hp. cbn [fold_left]. apply HA.
      apply nth_error_Some. congruence.
    - destruct Hm as (Hg & Hf). destruct (Hf n ps nm buf Hb) as (b1 & E1 & L1 & F1).
      cbn [ofold]. unfold in_place at 1. rewrite E1. cbn [obind]. rewrite L1, Nat.eqb_refl. cbn [obind].
      set (A1 := fun k => match nth_error ps k with Some p => g nm p (A k) | _ => A k end).
      destruct (IH n ps nm b1 A1) as (b2 & E2 & L2 & F2); [congruence| |].
      + intros k Hk. destruct (nth_error ps k) as [p|] eqn:Ep; [|apply nth_error_None in Ep; lia].
        unfold A1. rewrite Ep.
        destruct (Hg nm p (view n n (length ps) buf k) (A k) (HA k Hk)) as (G1 & G2 & G3).
        apply mat_same_trans with (g nm p (view n n (length ps) buf k)); auto.
        split; [symmetry; exact G2|]. split; [symmetry; exact G3|]. intros i j Hi Hj. cbn [m_at view].
        apply (F1 i j k p); auto.
      + exists b2. split; [exact E2|]. split; [congruence|]. intros k p Hp. cbn [fold_left].
        specialize (F2 k p Hp). unfold A1 in F2. rewrite Hp in F2. exact F2.
  Qed.

  Lemma osequence_aget : forall {A B} (pos : list A) (g : B -> nat) l, (forall c, In c l -> g c < length pos) ->
    exists ps, osequence (fun c => aget pos (g c)) l = Ok ps /\ length ps = length l /\
      forall k c, nth_error l k = Some c -> nth_error ps k = nth_error pos (g c).
  Proof.
    intros A B pos g l. induction l as [|c l IH]; intros H.
    - exists []. split; [reflexivity|]. split; [reflexivity|]. intros [|k] c Hc; discriminate.
    - destruct IH as (ps & E & L & F); [intros; apply H; right; auto|].
      assert (Hc : g c < length pos) by (apply H; left; auto).
      destruct (nth_error pos (g c)) as [p|] eqn:Ep; [|apply nth_error_None in Ep; lia].
      exists (p :: ps). cbn [osequence]. unfold aget at 1. rewrite Ep. cbn [obind]. rewrite E. cbn [omap obind length].
      split; [reflexivity|]. split; [lia|]. intros [|k] c' Hc'; cbn in *; [injection Hc' as <-; auto|auto].
  Qed.

  Variable nt : ntype R.
  Variable sys : hsys R V.
  Let d := hs_subs sys.

  Definition hop_entries (hg : list (hop_rule R V)) (shift : V -> V) (fc : nat * coo) : list (coo * R) :=
    flat_map (fun i => map (fun j => ((row_of d (fst (snd fc)) i, row_of d (snd (snd fc)) j),
                                      m_at (hop_matrix nt sys hg shift (fst fc) (snd fc)) i j))
      (seq 0 (norb_at d (snd (snd fc))))) (seq 0 (norb_at d (fst (snd fc)))).

  Definition site_entries (og : list (os_rule R V)) (s : nat) : list (coo * R) :=
    flat_map (fun i => map (fun j => ((row_of d s i, row_of d s j), m_at (site_matrix nt sys og s) i j))
      (seq 0 (norb_at d s))) (seq 0 (norb_at d s)).

  Hypothesis Hpos : length (hs_pos sys) = rle_size d.
  Hypothesis Hsorted : is_sorted (orbital_counts d) = true.

  Lemma translator_rows : forall n r rs, 0 < n -> r < rle_size d -> norb_at d r = n -> translator_start d n = Ok rs ->
    forall o, o < n -> translated_index_Z rs n o r = Z.of_nat (row_of d r o).
  Proof.
    intros n r rs Hn Hr E Ht o Ho.
    destruct (translator_agrees d r o n) as (sh & E1 & E2); auto; [apply is_sorted_sortedP; auto|].
    rewrite Ht in E1. injection E1 as <-. exact E2.
  Qed.

  Lemma translator_exists : forall n r, 0 < n -> r < rle_size d -> norb_at d r = n -> exists rs, translator_start d n = Ok rs.
  Proof.
    intros n r Hn Hr E. destruct (translator_agrees d r 0 n) as (sh & E1 & E2); auto; [apply is_sorted_sortedP; auto|].
    eauto.
  Qed.

  (* ---------------- one slice ---------------- *)
  Lemma slice_ok : forall hm hg shift f rs cs coos, Forall2 hop_follows hm hg ->
    let e := snd (reg_entry (hs_hop sys) f) in
    translator_start d (m_rows e) = Ok rs -> translator_start d (m_cols e) = Ok cs ->
    (forall c, In c coos -> fst c < rle_size d /\ snd c < rle_size d /\ m_rows e = norb_at d (fst c) /\ m_cols e = norb_at d (snd c)) ->
    exists full, hopping_slice nt (hs_pos sys) shift hm (reg_entry (hs_hop sys) f) rs cs coos = Ok (map zt (filter nz full)) /\
      Permutation full (flat_map (fun c => hop_entries hg shift (f, c)) coos).
  Proof.
    intros hm hg shift f rs cs coos Hm e Hrs Hcs Hc. unfold hopping_slice. fold e.
    destruct (osequence_aget (hs_pos sys) fst coos) as (p1 & E1 & L1 & F1); [intros c H; apply Hc in H; rewrite Hpos; tauto|].
    destruct (osequence_aget (hs_pos sys) snd coos) as (p2 & E2 & L2 & F2); [intros c H; apply Hc in H; rewrite Hpos; tauto|].
    rewrite E1. cbn [obind]. rewrite E2. cbn [obind].
    set (b0 := flat_map (fun v => repeat (nt_cast nt v) (length coos)) (mat_vals e)).
    assert (Lb : length b0 = m_rows e * m_cols e * length p1).
    { unfold b0. rewrite replicate_length, mat_vals_length, L1. reflexivity. }
    destruct (hop_mods_run hm hg Hm (m_rows e) (m_cols e) p1 (map shift p2) (fst (reg_entry (hs_hop sys) f)) b0 (fun _ => cast_mat nt e))
      as (b & Eb & Lb' & Fb); [rewrite map_length; congruence|exact Lb| |].
    { intros k Hk. split; [reflexivity|]. split; [reflexivity|]. intros i j Hi Hj. cbn [m_at view cast_mat m_rows m_cols] in *.
      rewrite L1 in *. apply elem_replicate; auto. }
    rewrite Eb. cbn [obind].
    assert (IDX : hopping_indices rs cs (m_rows e) (m_cols e) coos
      = map zz (flat_map (fun i => flat_map (fun j => map (fun c => (row_of d (fst c) i, row_of d (snd c) j)) coos)
                   (seq 0 (m_cols e))) (seq 0 (m_rows e)))).
    { unfold hopping_indices. rewrite map_flat_map. apply flat_map_ext_in. intros i Hi. apply in_seq in Hi.
      rewrite map_flat_map. apply flat_map_ext_in. intros j Hj. apply in_seq in Hj. rewrite map_map.
      apply map_ext_in. intros c Hin. destruct (Hc c Hin) as (C1 & C2 & C3 & C4). unfold zz. cbn [fst snd].
      f_equal; apply translator_rows; auto; lia. }
    rewrite IDX. rewrite emit_ok.
    2: { rewrite Lb', Lb, L1.
         assert (G : forall A B (h : A -> list B) c l, (forall a, length (h a) = c) -> length (flat_map h l) = length l * c).
         { clear. intros A B h c l H. induction l as [|a l IH]; [reflexivity|]. cbn [flat_map length]. rewrite app_length, H, IH. lia. }
         rewrite (G _ _ _ (m_cols e * length coos)).
         - rewrite seq_length. lia.
         - intros i. rewrite (G _ _ _ (length coos)); [rewrite seq_length; lia|]. intros; apply map_length. }
    eexists. split; [reflexivity|].
    rewrite grid_combine by (rewrite Lb', Lb, L1; reflexivity).
    (* bring the hopping loop outside *)
    transitivity (flat_map (fun kx => flat_map (fun i => flat_map (fun j =>
       [((row_of d (fst (snd kx)) i, row_of d (snd (snd kx)) j), elem (m_cols e) (length coos) b i j (fst kx))])
       (seq 0 (m_cols e))) (seq 0 (m_rows e))) (with_family coos)).
    { symmetry. etransitivity; [apply flat_map_swap|]. apply flat_map_perm_ext. intros i Hi.
      etransitivity; [apply flat_map_swap|]. apply flat_map_perm_ext. intros j Hj. rewrite map_as_flat_map. reflexivity. }
    rewrite <- (flat_map_snd (fun c => hop_entries hg shift (f, c)) coos).
    match goal with |- Permutation ?a ?b => cut (a = b); [intros ->; reflexivity|] end.
    apply flat_map_ext_in. intros [k c] Hk. cbn [fst snd].
    apply with_family_nth in Hk. assert (Hin : In c coos) by (eapply nth_error_In; eauto).
    destruct (Hc c Hin) as (C1 & C2 & C3 & C4). unfold hop_entries. cbn [fst snd]. rewrite <- C3, <- C4.
    apply flat_map_ext_in. intros i Hi. apply in_seq in Hi. rewrite map_as_flat_map.
    apply flat_map_ext_in. intros j Hj. apply in_seq in Hj. f_equal. f_equal.
    destruct (nth_error (hs_pos sys) (fst c)) as [p|] eqn:Ep; [|apply nth_error_None in Ep; lia].
    destruct (nth_error (hs_pos sys) (snd c)) as [q|] eqn:Eq; [|apply nth_error_None in Eq; lia].
    unfold hop_matrix. rewrite Ep, Eq. fold e.
    destruct (Fb k p (shift q)) as (M1 & M2 & M3).
    - rewrite (F1 k c Hk). exact Ep.
    - rewrite nth_error_map, (F2 k c Hk), Eq. reflexivity.
    - specialize (M3 i j). cbn [m_at view m_rows m_cols] in M3. rewrite L1 in M3. apply M3; lia.
  Qed.

  Lemma filter_flat_map : forall {A B} (q : B -> bool) (f : A -> list B) l,
    filter q (flat_map f l) = flat_map (fun a => filter q (f a)) l.
  Proof. intros A B q f l. induction l as [|a l IH]; [reflexivity|]. cbn [flat_map]. rewrite filter_app, IH. reflexivity. Qed.

  (** Collect the entries of a loop. *)
  Lemma collect : forall {A} (f : A -> outcome (list (Z * Z * R))) (spec : A -> list (coo * R)) l,
    (forall a, In a l -> exists full, f a = Ok (map zt (filter nz full)) /\ Permutation full (spec a)) ->
    exists full, ofold (fun acc a => obind (f a) (fun r => Ok (acc ++ r))) l [] = Ok (map zt (filter nz full)) /\
      Permutation full (flat_map spec l).
  Proof.
    intros A f spec l H.
    assert (G : exists full, (forall acc, ofold (fun acc a => obind (f a) (fun r => Ok (acc ++ r))) l acc = Ok (acc ++ map zt (filter nz full))) /\
      Permutation full (flat_map spec l)).
    { induction l as [|a l IH].
      - exists []. split; [intros; cbn; rewrite app_nil_r; reflexivity|constructor].
      - destruct IH as (full & E & P); [intros; apply H; right; auto|].
        destruct (H a) as (fa & Ea & Pa); [left; auto|]. exists (fa ++ full). split.
        + intros acc. cbn [ofold]. rewrite Ea. cbn [obind]. rewrite E, filter_app, map_app, app_assoc. reflexivity.
        + cbn [flat_map]. apply Permutation_app; auto. }
    destruct G as (full & E & P). exists full. split; [apply (E [])|exact P].
  Qed.

  Lemma flat_map_concat_id : forall {A B} (f : A -> list B) (ls : list (list A)),
    flat_map f (concat ls) = flat_map (fun l => flat_map f l) ls.
  Proof. intros A B f ls. induction ls as [|l ls IH]; [reflexivity|]. cbn [concat flat_map]. rewrite flat_map_app, IH. reflexivity. Qed.

  (* ---------------- one block, any batch size ---------------- *)
  Lemma block_ok : forall cap hm hg shift f coos, Forall2 hop_follows hm hg ->
    let e := snd (reg_entry (hs_hop sys) f) in
    f < length (hs_hop sys) -> (forall x, In x d -> 0 < e_norb x) ->
    (coos <> [] -> mat_size e <= cap) ->
    (forall c, In c coos -> fst c < rle_size d /\ snd c < rle_size d /\ m_rows e = norb_at d (fst c) /\ m_cols e = norb_at d (snd c)) ->
    exists full, hopping_block cap nt sys shift hm f coos = Ok (map zt (filter nz full)) /\
      Permutation full (flat_map (fun c => hop_entries hg shift (f, c)) coos).
  Proof.
    intros cap hm hg shift f coos Hm e Hf Hp Hcap Hc. unfold hopping_block.
    destruct coos as [|c0 coos']; [exists []; split; [reflexivity|constructor]|].
    set (coos := c0 :: coos') in *.
    assert (Hg : reg_get (hs_hop sys) f = Ok (reg_entry (hs_hop sys) f)).
    { unfold reg_get, reg_entry. rewrite (nth_error_nth' _ (Blank, Mat 0 0 (fun _ _ => k0))) by auto. reflexivity. }
    rewrite Hg. cbn [obind]. fold e.
    destruct (Hc c0 (or_introl eq_refl)) as (C1 & C2 & C3 & C4).
    assert (NP : forall s, s < rle_size d -> 0 < norb_at d s).
    { intros s Hs. pose proof (labels_norb_in d s Hs) as I. fold (orb_count d s) in I. rewrite norb_at_count.
      unfold orbital_counts in I. apply in_map_iff in I. destruct I as (x & <- & Hx). auto. }
    destruct (translator_exists (m_rows e) (fst c0)) as (rs & Ers); auto; [rewrite C3; auto|].
    destruct (translator_exists (m_cols e) (snd c0)) as (cs & Ecs); auto; [rewrite C4; auto|].
    unfold d in Ers, Ecs. rewrite Ers. cbn [obind]. rewrite Ecs. cbn [obind]. fold d in Ers, Ecs.
    assert (SZ : 0 < mat_size e) by (unfold mat_size; rewrite C3, C4; apply Nat.mul_pos_pos; auto).
    destruct (Nat.eqb_spec (mat_size e) 0); [lia|].
    assert (ST : 0 < Nat.min (cap / mat_size e) (length coos)).
    { apply Nat.min_glb_lt; [|cbn; lia]. apply Nat.div_str_pos. split; [exact SZ|]. apply Hcap. discriminate. }
    destruct (slices_ok (length coos) _ coos ST (le_n _)) as (sl & Esl & Csl & _). rewrite Esl.
    destruct (collect (hopping_slice nt (hs_pos sys) shift hm (reg_entry (hs_hop sys) f) rs cs)
                (fun l => flat_map (fun c => hop_entries hg shift (f, c)) l) sl) as (full & E & P).
    - intros l Hl. apply slice_ok; auto. intros c Hin. apply Hc. rewrite <- Csl. apply in_concat. eauto.
    - exists full. split; [exact E|]. rewrite P, <- Csl, flat_map_concat_id. reflexivity.
  Qed.

  (* ---------------- a whole table ---------------- *)
  Definition skips (full es : list (coo * R)) : Prop := es = full \/ es = filter nz full.

  Lemma in_stored : forall h f c, In (f, c) (stored h) <-> exists b, nth_error (hb_blocks h) f = Some b /\ In c b.
  Proof.
    intros h f c. unfold stored. change (combine (seq 0 (length (hb_blocks h))) (hb_blocks h)) with (with_family (hb_blocks h)).
    rewrite in_flat_map. split.
    - intros ([f' b] & H1 & H2). apply with_family_nth in H1. cbn [fst snd] in H2. apply in_map_iff in H2.
      destruct H2 as (c' & E & Hc). injection E as -> ->. eauto.
    - intros (b & H1 & H2). exists (f, b). split; [apply with_family_nth; auto|]. cbn [fst snd].
      apply in_map_iff. exists c. auto.
  Qed.

  Definition cap_ok (cap : nat) (h : hblocks) : Prop :=
    forall f c, In (f, c) (stored h) -> mat_size (snd (reg_entry (hs_hop sys) f)) <= cap.

  Hypothesis Hnorb : forall x, In x d -> 0 < e_norb x.

  Lemma hoppings_ok : forall cap hm hg shift h, Forall2 hop_follows hm hg -> wf_hops sys h -> cap_ok cap h ->
    exists full es, apply_to_hoppings cap nt sys shift hm h = Ok (map zt es) /\ skips full es /\
      Permutation full (flat_map (hop_entries hg shift) (stored h)).
  Proof.
    intros cap hm hg shift h Hm [Hfam Hw] Hcap. unfold apply_to_hoppings.
    assert (ST : flat_map (hop_entries hg shift) (stored h)
       = flat_map (fun fb => flat_map (fun c => hop_entries hg shift (fst fb, c)) (snd fb)) (with_family (hb_blocks h))).
    { unfold stored. rewrite flat_map_flat_map. apply flat_map_ext. intros fb. apply flat_map_map. }
    rewrite ST. clear ST.
    destruct ((length hm =? 0) && negb (has_multiple_orbitals (hs_hop sys))) eqn:FAST.
    - (* fast path *)
      apply andb_true_iff in FAST. destruct FAST as [F1 F2]. apply Nat.eqb_eq in F1.
      destruct hm as [|? ?]; [|discriminate]. inversion Hm; subst. apply negb_true_iff in F2.
      set (g := fun fb : nat * list coo => flat_map (fun c => hop_entries [] shift (fst fb, c)) (snd fb)).
      exists (flat_map g (with_family (hb_blocks h))), (flat_map g (with_family (hb_blocks h))).
      split; [|split; [left; reflexivity|reflexivity]].
      rewrite (ofold_app_ok (fun fb => hopping_block_fast nt sys (fst fb) (snd fb)) (fun fb => map zt (g fb))).
      + cbn [app]. rewrite map_flat_map. reflexivity.
      + intros [f b] Hb. cbn [fst snd]. apply with_family_nth in Hb. unfold hopping_block_fast.
        assert (Hf : f < length (hs_hop sys)).
        { assert (f < length (hb_blocks h)) by (apply nth_error_Some; congruence). lia. }
        assert (Hg : reg_get (hs_hop sys) f = Ok (reg_entry (hs_hop sys) f)).
        { unfold reg_get, reg_entry. rewrite (nth_error_nth' _ (Blank, Mat 0 0 (fun _ _ => k0))) by auto. reflexivity. }
        rewrite Hg. cbn [obind]. f_equal. unfold g. cbn [fst snd]. rewrite map_flat_map.
        rewrite (map_as_flat_map (fun c : coo => _)). apply flat_map_ext_in. intros c Hc.
        destruct (Hw f c) as (C1 & C2 & C3 & C4); [apply in_stored; eauto|].
        assert (S1 : mat_size (snd (reg_entry (hs_hop sys) f)) = 1).
        { unfold has_multiple_orbitals in F2. destruct (Nat.eq_dec (mat_size (snd (reg_entry (hs_hop sys) f))) 1) as [E|N]; auto.
          exfalso. assert (T : existsb (fun e => negb (mat_size (snd e) =? 1)) (hs_hop sys) = true).
          { apply existsb_exists. exists (reg_entry (hs_hop sys) f). split; [apply nth_In; auto|].
            apply negb_true_iff. apply Nat.eqb_neq. exact N. }
          congruence. }
        unfold mat_size in S1. apply Nat.eq_mul_1 in S1. destruct S1 as [S1 S2].
        unfold hop_entries. cbn [fst snd]. fold d in C3, C4. rewrite <- C3, <- C4, S1, S2. cbn [seq flat_map map app].
        rewrite !row_single; auto; try (apply is_sorted_sortedP; exact Hsorted); try congruence.
        unfold zt. cbn [fst snd]. f_equal. f_equal. unfold hop_matrix.
        destruct (nth_error (hs_pos sys) (fst c)); [destruct (nth_error (hs_pos sys) (snd c))|]; reflexivity.
    - destruct (collect (fun fb => hopping_block cap nt sys shift hm (fst fb) (snd fb))
                 (fun fb => flat_map (fun c => hop_entries hg shift (fst fb, c)) (snd fb)) (with_family (hb_blocks h)))
        as (full & E & P).
      + intros [f b] Hb. cbn [fst snd]. apply with_family_nth in Hb.
        apply block_ok; auto.
        * assert (f < length (hb_blocks h)) by (apply nth_error_Some; congruence). lia.
        * intros NE. destruct b as [|c b]; [congruence|]. apply (Hcap f c). apply in_stored. exists (c :: b). split; auto. left; auto.
        * intros c Hc. apply (Hw f c). apply in_stored. eauto.
      + exists full, (filter nz full). split; [exact E|]. split; [right; reflexivity|exact P].
  Qed.
End E.
