(* The assembled Hamiltonian: existence, matrix elements (C18), independence of the batch
   size (C19), Hermiticity (C17). *)
From Verif Require Import Base Rle RleProofs Blocks BlocksProofs TablesSpec Scalar Foundation Lattice Hamiltonian HamiltonianSpec HamProofs HamElements.
From Coq Require Import Permutation.

Section F.
  Variable R : scalar.
  Variable V : Type.
  Add Ring Rring4 : (k_ring R).
  Variable nt : ntype R.
  Hypothesis NT_ok : nt_ok nt.
  Variable sys : hsys R V.
  Let d := hs_subs sys.
  Notation elem := (@HamiltonianSpec.elem R).
  Notation view := (@view R).

  Lemma all_zero : has_nonzero_energy (hs_site sys) = false -> forall id i j, id < length (hs_site sys) ->
    i < m_rows (snd (reg_entry (hs_site sys) id)) -> j < m_cols (snd (reg_entry (hs_site sys) id)) ->
    m_at (snd (reg_entry (hs_site sys) id)) i j = k0.
  Proof.
    intros H id i j Hid Hi Hj. set (e := reg_entry (hs_site sys) id) in *.
    assert (In e (hs_site sys)) by (apply nth_In; auto).
    unfold has_nonzero_energy in H.
    assert (Z : forallb (fun v => keqb v k0) (mat_vals (snd e)) = true).
    { destruct (forallb _ (mat_vals (snd e))) eqn:E; auto. exfalso.
      assert (T : existsb (fun e => negb (forallb (fun v => keqb v k0) (mat_vals (snd e)))) (hs_site sys) = true).
      { apply existsb_exists. exists e. rewrite E. auto. }
      congruence. }
    rewrite forallb_forall in Z. rewrite <- nth_mat_vals by auto. apply (keqb_eq R). apply Z. apply nth_In.
    rewrite mat_vals_length. nia.
  Qed.

  Hypothesis WF : wf_hsys sys.

  Lemma wf_pos : length (hs_pos sys) = rle_size d. Proof. exact (proj1 WF). Qed.
  Lemma wf_sorted : is_sorted (orbital_counts d) = true. Proof. exact (proj1 (proj2 WF)). Qed.
  Lemma wf_norb : forall e, In e d -> 0 < e_norb e. Proof. intros e He. apply (proj1 (proj2 (proj2 WF))) in He. tauto. Qed.

  Lemma norb_pos : forall s, s < rle_size d -> 0 < norb_at d s.
  Proof.
    intros s Hs. pose proof (labels_norb_in d s Hs) as I. fold (orb_count d s) in I. rewrite norb_at_count.
    unfold orbital_counts in I. apply in_map_iff in I. destruct I as (x & <- & Hx). apply wf_norb; auto.
  Qed.

  Lemma flat_map_seq_shift : forall {A} (f : nat -> list A) a n, flat_map (fun k => f (a + k)) (seq 0 n) = flat_map f (seq a n).
  Proof.
    intros A f a n. rewrite <- (flat_map_map f (fun k => a + k)). f_equal.
    revert a. induction n as [|n IH]; intros a; [reflexivity|]. cbn [seq map]. rewrite Nat.add_0_r. f_equal.
    rewrite <- seq_shift, map_map. rewrite <- (IH (S a)). apply map_ext. intros; lia.
  Qed.

  (* ---------------- onsite ---------------- *)
  Lemma onsite_block_ok : forall om og s, Forall2 os_follows om og -> In s (iter d) ->
    exists full, obind (onsite_buffer nt sys om (has_nonzero_energy (hs_site sys)) s) (fun b => emit (onsite_indices s) b)
        = Ok (map zt (filter nz full)) /\
      Permutation full (flat_map (site_entries R V nt sys og) (seq (it_sys s) (e_num (it_e s)))).
  Proof.
    intros om og s Hm Hs. destruct NT_ok as (NC & _).
    destruct (iter_facts d 0 0 s Hs) as (I1 & _ & I3 & I4 & I5). rewrite Nat.sub_0_r in *. cbn [Nat.add] in *.
    set (N := e_num (it_e s)) in *. set (n := e_norb (it_e s)) in *. set (id := e_id (it_e s)) in *.
    destruct (proj1 (proj2 (proj2 WF)) (it_e s) I1) as (P1 & P2 & P3 & P4). fold id in P2, P3, P4. fold n in P1, P3, P4.
    set (e := snd (reg_entry (hs_site sys) id)) in *.
    assert (Hg : reg_get (hs_site sys) id = Ok (reg_entry (hs_site sys) id)).
    { unfold reg_get, reg_entry. rewrite (nth_error_nth' _ (Blank, Mat 0 0 (fun _ _ => k0))) by auto. reflexivity. }
    (* the buffer before the modifiers *)
    assert (B0 : exists b0, (if has_nonzero_energy (hs_site sys)
             then obind (reg_get (hs_site sys) id) (fun e => fill_segments (repeat k0 (N * n * n)) 0 N (map (nt_cast nt) (mat_vals (snd e))))
             else Ok (repeat k0 (N * n * n))) = Ok b0 /\ length b0 = N * n * n /\
             forall k, k < N -> mat_same (view n n N b0 k) (cast_mat nt e)).
    { destruct (has_nonzero_energy (hs_site sys)) eqn:HN.
      - rewrite Hg. cbn [obind]. fold e.
        assert (F := fill_ok R N (map (nt_cast nt) (mat_vals e)) [] (repeat k0 (N * n * n))). cbn [app length] in F.
        rewrite F by (rewrite repeat_length, map_length, mat_vals_length, P3, P4; lia). clear F.
        eexists. split; [reflexivity|]. rewrite flat_map_map. split.
        + rewrite (replicate_length R (nt_cast nt)), mat_vals_length, P3, P4. lia.
        + intros k Hk. split; [symmetry; exact P3|]. split; [symmetry; exact P4|]. intros i j Hi Hj.
          cbn [m_at HamElements.view cast_mat m_rows m_cols] in *. rewrite <- P4. apply elem_replicate; auto; congruence.
      - eexists. split; [reflexivity|]. rewrite repeat_length. split; [reflexivity|]. intros k Hk.
        split; [symmetry; exact P3|]. split; [symmetry; exact P4|]. intros i j Hi Hj.
        cbn [m_at HamElements.view cast_mat m_rows m_cols] in *. unfold HamiltonianSpec.elem. rewrite nth_repeat.
        unfold e. rewrite (all_zero HN); auto; fold e; congruence. }
    destruct B0 as (b0 & E0 & L0 & F0).
    assert (BB : exists b, onsite_buffer nt sys om (has_nonzero_energy (hs_site sys)) s = Ok b /\ length b = N * n * n /\
       forall k, k < N -> mat_same (view n n N b k) (site_matrix nt sys og (it_sys s + k))).
    { unfold onsite_buffer. fold N n id. rewrite E0. cbn [obind].
      assert (SM : forall k p, k < N -> nth_error (hs_pos sys) (it_sys s + k) = Some p ->
         site_matrix nt sys og (it_sys s + k) = fold_left (fun A g => g (fst (reg_entry (hs_site sys) id)) p A) og (cast_mat nt e)).
      { intros k p Hk Hp. unfold site_matrix. rewrite Hp. fold d. change (site_list d) with (labels d). rewrite I5 by auto. reflexivity. }
      assert (PP : forall k, k < N -> exists p, nth_error (hs_pos sys) (it_sys s + k) = Some p).
      { intros k Hk. destruct (nth_error (hs_pos sys) (it_sys s + k)) eqn:Ep; eauto. apply nth_error_None in Ep.
        rewrite wf_pos in Ep. lia. }
      destruct om as [|m om'].
      - inversion Hm; subst. exists b0. split; [reflexivity|]. split; [exact L0|]. intros k Hk.
        destruct (PP k Hk) as (p & Hp). rewrite (SM k p Hk Hp). cbn [fold_left]. auto.
      - set (om := m :: om') in *. unfold segment.
        destruct (Nat.leb_spec (it_sys s + N) (length (hs_pos sys))) as [LE|GT]; [|rewrite wf_pos in GT; lia].
        cbn [obind]. rewrite Hg. cbn [obind]. set (ps := firstn N (skipn (it_sys s) (hs_pos sys))).
        assert (LP : length ps = N) by (unfold ps; rewrite firstn_length, skipn_length; lia).
        destruct (os_mods_run R V om og Hm n ps (fst (reg_entry (hs_site sys) id)) b0 (fun _ => cast_mat nt e)) as (b & Eb & Lb & Fb).
        + rewrite L0, LP. reflexivity.
        + intros k Hk. rewrite LP in *. auto.
        + exists b. split; [exact Eb|]. split; [congruence|]. intros k Hk. destruct (PP k Hk) as (p & Hp).
          rewrite (SM k p Hk Hp). rewrite LP in Fb. apply Fb. unfold ps.
          assert (NE : forall (l : list V) a n i, i < n -> nth_error (firstn n (skipn a l)) i = nth_error l (a + i)).
          { clear. intros l a n i Hi. revert l. induction a as [|a IH]; intros l.
            - cbn [skipn Nat.add]. revert i l Hi. induction n as [|n IHn]; intros i l Hi; [lia|].
              destruct l as [|x l]; [destruct i; reflexivity|]. destruct i; cbn; [reflexivity|]. apply IHn. lia.
            - destruct l as [|x l]; [cbn [skipn]; rewrite firstn_nil; destruct i; reflexivity|apply IH]. }
          rewrite NE by auto. exact Hp. }
    destruct BB as (b & Eb & Lb & Fb). rewrite Eb. cbn [obind].
    assert (RO : forall k i, k < N -> row_of d (it_sys s + k) i = i + (it_ham s + k * n)).
    { intros k i Hk. rewrite row_of_offset. rewrite (orb_offset_const d (it_sys s) k n).
      - rewrite I4. lia.
      - lia.
      - intros x Hx1 Hx2. unfold orb_count. replace x with (it_sys s + (x - it_sys s)) by lia. rewrite I5 by lia. reflexivity. }
    assert (IDX : onsite_indices s = map zz (flat_map (fun i => flat_map (fun j => map (fun k =>
         (row_of d (it_sys s + k) i, row_of d (it_sys s + k) j)) (seq 0 N)) (seq 0 n)) (seq 0 n))).
    { unfold onsite_indices. fold N n. rewrite map_flat_map. apply flat_map_ext. intros i.
      rewrite map_flat_map. apply flat_map_ext. intros j. rewrite map_map. apply map_ext_in. intros k Hk. apply in_seq in Hk.
      unfold zz. cbn [fst snd]. rewrite !RO by lia. reflexivity. }
    rewrite IDX, emit_ok.
    2: { assert (G : forall A B (h : A -> list B) c l, (forall a, length (h a) = c) -> length (flat_map h l) = length l * c).
         { clear. intros A B h c l H. induction l as [|a l IH]; [reflexivity|]. cbn [flat_map length]. rewrite app_length, H, IH. lia. }
         rewrite (G _ _ _ (n * N)).
         - rewrite seq_length. lia.
         - intros i. rewrite (G _ _ _ N); [rewrite seq_length; lia|]. intros. rewrite map_length, seq_length. reflexivity. }
    eexists. split; [reflexivity|].
    rewrite grid_combine by (rewrite seq_length; lia). rewrite seq_length.
    transitivity (flat_map (fun kx => flat_map (fun i => flat_map (fun j =>
       [((row_of d (it_sys s + snd kx) i, row_of d (it_sys s + snd kx) j), elem n N b i j (fst kx))])
       (seq 0 n)) (seq 0 n)) (with_family (seq 0 N))).
    { symmetry. etransitivity; [apply flat_map_swap|]. apply flat_map_perm_ext. intros i Hi.
      etransitivity; [apply flat_map_swap|]. apply flat_map_perm_ext. intros j Hj. rewrite map_as_flat_map. reflexivity. }
    rewrite <- (flat_map_seq_shift (site_entries R V nt sys og)).
    rewrite <- (flat_map_snd (fun k => site_entries R V nt sys og (it_sys s + k)) (seq 0 N)).
    match goal with |- Permutation ?a ?b => cut (a = b); [intros ->; reflexivity|] end.
    apply flat_map_ext_in. intros [k x] Hk. cbn [fst snd]. apply with_family_nth in Hk.
    assert (KN : k < N /\ x = k).
    { assert (k < length (seq 0 N)) by (apply nth_error_Some; congruence). rewrite seq_length in H. split; auto.
      rewrite (nth_error_nth' _ 0) in Hk by (rewrite seq_length; auto). rewrite seq_nth in Hk by auto. cbn in Hk. congruence. }
    destruct KN as [KN ->].
    assert (NN : norb_at d (it_sys s + k) = n).
    { rewrite norb_at_count. unfold orb_count. rewrite I5 by auto. reflexivity. }
    unfold site_entries. fold d. rewrite NN.
    apply flat_map_ext_in. intros i Hi. apply in_seq in Hi. rewrite map_as_flat_map.
    apply flat_map_ext_in. intros j Hj. apply in_seq in Hj. f_equal. f_equal.
    destruct (Fb k KN) as (M1 & M2 & M3). apply (M3 i j); cbn [HamElements.view m_rows m_cols]; lia.
  Qed.

  Lemma onsite_ok : forall om og, Forall2 os_follows om og ->
    exists full, apply_to_onsite nt sys om = Ok (map zt (filter nz full)) /\
      Permutation full (flat_map (site_entries R V nt sys og) (seq 0 (rle_size d))).
  Proof.
    intros om og Hm. unfold apply_to_onsite.
    destruct (negb (has_nonzero_energy (hs_site sys)) && (length om =? 0)) eqn:SK.
    - apply andb_true_iff in SK. destruct SK as [S1 S2]. apply negb_true_iff in S1. apply Nat.eqb_eq in S2.
      destruct om; [|discriminate]. inversion Hm; subst.
      eexists. split; [|reflexivity].
      assert (Z : forall l, (forall t, In t l -> snd t = k0) -> filter (@nz R) l = []).
      { intros l. induction l as [|t l IH]; intros H; [reflexivity|]. cbn [filter]. unfold nz at 1. rewrite (H t) by (left; auto).
        assert (K : keqb (s := R) k0 k0 = true) by (apply (keqb_eq R); reflexivity). rewrite K. cbn [negb].
        apply IH. intros; apply H; right; auto. }
      rewrite Z; [reflexivity|]. intros t Ht. apply in_flat_map in Ht. destruct Ht as (s & Hs & Ht). apply in_seq in Hs.
      unfold site_entries in Ht. apply in_flat_map in Ht. destruct Ht as (i & Hi & Ht). apply in_map_iff in Ht.
      destruct Ht as (j & <- & Hj). apply in_seq in Hi. apply in_seq in Hj. cbn [snd]. fold d in Hi, Hj.
      unfold site_matrix. cbn [fold_left]. fold d.
      assert (E : forall (o : option V) (x : mat R), match o with Some _ => x | None => x end = x) by (intros []; auto).
      rewrite E. cbn [cast_mat m_at].
      destruct NT_ok as (NC & _).
      assert (In (nth s (labels d) (0, 0)) (labels d)) as I by (apply nth_In; rewrite <- rle_size_labels; lia).
      unfold labels in I at 2. apply in_flat_map in I. destruct I as (x & Hx & Hr). apply repeat_spec in Hr.
      change (site_list d) with (labels d). unfold norb_at in Hi, Hj. change (site_list d) with (labels d) in Hi, Hj.
      rewrite Hr in *. cbn [fst snd] in *.
      destruct (proj1 (proj2 (proj2 WF)) x Hx) as (P1 & P2 & P3 & P4).
      rewrite (all_zero S1); auto; lia.
    - destruct (collect R (fun s => obind (onsite_buffer nt sys om (has_nonzero_energy (hs_site sys)) s) (fun b => emit (onsite_indices s) b))
         (fun s => flat_map (site_entries R V nt sys og) (seq (it_sys s) (e_num (it_e s)))) (iter d)) as (full & E & P).
      + intros s Hs. apply onsite_block_ok; auto.
      + exists full. split.
        * rewrite <- E. fold d. clear E P. generalize (@nil (Z * Z * R)). induction (iter d) as [|s l IH]; intros acc; [reflexivity|].
          cbn [ofold]. destruct (onsite_buffer nt sys om (has_nonzero_energy (hs_site sys)) s) as [b| |]; cbn [obind]; auto.
          destruct (emit (onsite_indices s) b) as [r| |]; cbn [obind]; auto.
        * rewrite P. rewrite <- (flat_map_flat_map (site_entries R V nt sys og)). unfold iter. rewrite iter_sites. reflexivity.
  Qed.

  (* ---------------- sums of entries ---------------- *)
  Lemma coo_eqb_row : forall a b i j : nat, coo_eqb (a, b) (i, j) = (a =? i) && (b =? j). Proof. reflexivity. Qed.

  Lemma coeff_grid : forall r c s i t j (T : nat -> nat -> R), r < rle_size d -> c < rle_size d -> s < rle_size d -> t < rle_size d ->
    i < norb_at d s -> j < norb_at d t ->
    coeff (flat_map (fun i' => map (fun j' => ((row_of d r i', row_of d c j'), T i' j')) (seq 0 (norb_at d c))) (seq 0 (norb_at d r)))
      (row_of d s i) (row_of d t j)
    = if (r =? s) && (c =? t) then T i j else k0.
  Proof.
    intros r c s i t j T Hr Hc Hs Ht Hi Hj. unfold coeff. rewrite ksum_flat_map.
    assert (IN : forall i' j', In i' (seq 0 (norb_at d r)) -> In j' (seq 0 (norb_at d c)) ->
       coo_eqb (row_of d r i', row_of d c j') (row_of d s i, row_of d t j) = (r =? s) && (c =? t) && (i' =? i) && (j' =? j)).
    { intros i' j' Hi' Hj'. apply in_seq in Hi'. apply in_seq in Hj'. rewrite coo_eqb_row.
      destruct (Nat.eqb_spec (row_of d r i') (row_of d s i)) as [E1|N1].
      - apply row_of_inj in E1; auto; try lia. destruct E1 as [-> ->]. rewrite !Nat.eqb_refl. cbn [andb].
        destruct (Nat.eqb_spec (row_of d c j') (row_of d t j)) as [E2|N2].
        + apply row_of_inj in E2; auto; try lia. destruct E2 as [-> ->]. rewrite !Nat.eqb_refl. reflexivity.
        + destruct (Nat.eqb_spec c t) as [->|]; [|reflexivity]. destruct (Nat.eqb_spec j' j) as [->|]; [congruence|reflexivity].
      - destruct (Nat.eqb_spec r s) as [->|]; [|reflexivity]. cbn [andb].
        destruct (c =? t); [|reflexivity]. cbn [andb]. destruct (Nat.eqb_spec i' i) as [->|]; [congruence|reflexivity]. }
    destruct (Nat.eqb_spec r s) as [->|Nr]; cbn [andb].
    - destruct (Nat.eqb_spec c t) as [->|Nc].
      + rewrite (ksum_single R _ (norb_at d s) i); auto.
        * rewrite ksum_map. rewrite (ksum_single R _ (norb_at d t) j); auto.
          -- cbn [fst snd]. rewrite IN by (apply in_seq; lia). rewrite !Nat.eqb_refl. reflexivity.
          -- intros j' Hj' Nj. cbn [fst snd]. rewrite IN by (apply in_seq; lia). rewrite Nat.eqb_refl. cbn [andb].
             destruct (Nat.eqb_spec j' j); [congruence|reflexivity].
        * intros i' Hi' Ni. rewrite ksum_map. apply ksum_0. intros j' Hj'. cbn [fst snd]. rewrite IN by (auto; apply in_seq; lia).
          cbn [andb]. destruct (Nat.eqb_spec i' i); [congruence|reflexivity].
      + apply ksum_0. intros i' Hi'. rewrite ksum_map. apply ksum_0. intros j' Hj'. cbn [fst snd]. rewrite IN by auto.
        reflexivity.
    - apply ksum_0. intros i' Hi'. rewrite ksum_map. apply ksum_0. intros j' Hj'. cbn [fst snd]. rewrite IN by auto.
      reflexivity.
  Qed.

  Lemma coeff_flat_map : forall {A} (f : A -> list (coo * R)) l a b, coeff (flat_map f l) a b = ksum (fun x => coeff (f x) a b) l.
  Proof. intros. unfold coeff. apply ksum_flat_map. Qed.

  Lemma coeff_sites : forall og s i t j, s < rle_size d -> t < rle_size d -> i < norb_at d s -> j < norb_at d t ->
    coeff (flat_map (site_entries R V nt sys og) (seq 0 (rle_size d))) (row_of d s i) (row_of d t j)
    = if s =? t then m_at (site_matrix nt sys og s) i j else k0.
  Proof.
    intros og s i t j Hs Ht Hi Hj. rewrite coeff_flat_map. rewrite (ksum_single R _ (rle_size d) s); auto.
    - unfold site_entries. fold d. rewrite coeff_grid; auto. rewrite Nat.eqb_refl. reflexivity.
    - intros x Hx Nx. unfold site_entries. fold d. rewrite coeff_grid; auto. destruct (Nat.eqb_spec x s); [congruence|reflexivity].
  Qed.

  Lemma coeff_hops : forall hg shift h s i t j, wf_hops sys h -> s < rle_size d -> t < rle_size d -> i < norb_at d s -> j < norb_at d t ->
    coeff (flat_map (hop_entries R V nt sys hg shift) (stored h)) (row_of d s i) (row_of d t j)
    = ksum (fun fc => if (fst (snd fc) =? s) && (snd (snd fc) =? t) then m_at (hop_matrix nt sys hg shift (fst fc) (snd fc)) i j else k0) (stored h).
  Proof.
    intros hg shift h s i t j [_ Hw] Hs Ht Hi Hj. rewrite coeff_flat_map. apply ksum_ext. intros [f c] Hc.
    destruct (Hw f c Hc) as (C1 & C2 & _). unfold hop_entries. fold d. cbn [fst snd]. apply coeff_grid; auto.
  Qed.

  Definition scaled (ph : R) (t : coo * R) : coo * R := (fst t, kmul (snd t) ph).
  Lemma coeff_scaled : forall ph ts a b, coeff (map (scaled ph) ts) a b = kmul (coeff ts a b) ph.
  Proof.
    intros ph ts a b. unfold coeff. rewrite ksum_map, <- ksum_mul_r. apply ksum_ext. intros t _. unfold scaled. cbn [fst snd].
    destruct (coo_eqb (fst t) (a, b)); [reflexivity|ring].
  Qed.

  Lemma coeff_skips : forall full es a b, skips R full es -> coeff es a b = coeff full a b.
  Proof. intros full es a b [-> | ->]; [reflexivity|apply coeff_nz]. Qed.

  Lemma ksum_ntconj : forall {A} (f : A -> R) l, nt_conj nt (ksum f l) = ksum (fun a => nt_conj nt (f a)) l.
  Proof.
    intros A f l. destruct NT_ok as (_ & N0 & NA & _). induction l as [|a l IH]; [exact N0|]. rewrite !ksum_cons, NA, IH. reflexivity.
  Qed.

  (** Contribution of a table, forward and conjugate. *)
  Lemma coeff_table : forall hg shift h full es ph s i t j, wf_hops sys h ->
    skips R full es -> Permutation full (flat_map (hop_entries R V nt sys hg shift) (stored h)) ->
    s < rle_size d -> t < rle_size d -> i < norb_at d s -> j < norb_at d t ->
    coeff (flat_map (bothn (nt_conj nt)) (map (scaled ph) es)) (row_of d s i) (row_of d t j)
    = ksum (fun fc => hop_part nt (fun i j => kmul (m_at (hop_matrix nt sys hg shift (fst fc) (snd fc)) i j) ph) (snd fc) s i t j) (stored h).
  Proof.
    intros hg shift h full es ph s i t j Hw Hsk P Hs Ht Hi Hj. destruct NT_ok as (NC & N0 & NA & NI).
    rewrite coeff_bothn, coeff_flip by auto. rewrite !coeff_scaled.
    pose proof (fun a b => coeff_skips full es a b Hsk) as CS. rewrite !CS.
    pose proof (fun a b => coeff_perm _ _ _ a b P) as CP. rewrite !CP. rewrite !coeff_hops by auto.
    rewrite <- !ksum_mul_r, ksum_ntconj, <- ksum_add. apply ksum_ext. intros [f c] Hc. unfold hop_part. cbn [fst snd]. f_equal.
    - destruct (_ && _); [reflexivity|ring].
    - destruct (_ && _); [reflexivity|]. transitivity (nt_conj nt (k0 : R)); [f_equal; ring|exact N0].
  Qed.

  Lemma entries_in_mat : forall hg shift h full es, wf_hops sys h -> skips R full es ->
    Permutation full (flat_map (hop_entries R V nt sys hg shift) (stored h)) -> Forall (in_mat (hamiltonian_size d)) es.
  Proof.
    intros hg shift h full es [_ Hw] Hsk P. apply Forall_forall. intros t Ht.
    assert (I : In t full) by (destruct Hsk as [-> | ->]; [auto|apply filter_In in Ht; tauto]).
    apply (Permutation_in _ P) in I. apply in_flat_map in I. destruct I as ([f c] & Hc & I).
    destruct (Hw f c Hc) as (C1 & C2 & _). unfold hop_entries in I. cbn [fst snd] in I. apply in_flat_map in I.
    destruct I as (i & Hi & I). apply in_map_iff in I. destruct I as (j & <- & Hj). apply in_seq in Hi. apply in_seq in Hj.
    unfold in_mat. cbn [fst snd]. split; apply row_of_lt; auto; fold d in Hi, Hj; lia.
  Qed.

  Lemma bothn_in_mat : forall n cj es, Forall (in_mat (R := R) n) es -> Forall (in_mat n) (flat_map (bothn cj) es).
  Proof.
    intros n cj es H. apply Forall_forall. intros t Ht. apply in_flat_map in Ht. destruct Ht as (e & He & Ht).
    rewrite Forall_forall in H. apply H in He. destruct Ht as [<-|[<-|[]]]; [exact He|]. unfold in_mat in *. cbn [flip fst snd]. tauto.
  Qed.

  Lemma scaled_in_mat : forall n ph es, Forall (in_mat n) es -> Forall (in_mat n) (map (scaled ph) es).
  Proof. intros n ph es H. apply Forall_forall. intros t Ht. apply in_map_iff in Ht. destruct Ht as (e & <- & He). rewrite Forall_forall in H. apply (H e He). Qed.

  Lemma scaled_zt : forall ph es, map (scale_by ph) (map zt es) = map zt (map (scaled ph) es).
  Proof. intros. rewrite !map_map. apply map_ext. intros [[a b] v]. reflexivity. Qed.

  Variable unshift : V -> V -> V.
  Variable phase : V -> R.

  (* ---------------- boundaries ---------------- *)
  Lemma periodic_ok : forall cap hm hg, Forall2 hop_follows hm hg -> (forall b, In b (hs_bounds sys) -> cap_ok R V sys cap (fst b)) ->
    forall m, exists ext, build_periodic cap nt sys hm unshift phase m = Ok (m ++ ext) /\
      Forall (in_mat (hamiltonian_size d)) ext /\
      forall s i t j, s < rle_size d -> t < rle_size d -> i < norb_at d s -> j < norb_at d t ->
        coeff ext (row_of d s i) (row_of d t j)
        = ksum (fun b => ksum (fun fc =>
            hop_part nt (fun i j => kmul (m_at (hop_matrix nt sys hg (fun p => unshift p (snd b)) (fst fc) (snd fc)) i j) (nt_cast nt (phase (snd b))))
                 (snd fc) s i t j) (stored (fst b))) (hs_bounds sys).
  Proof.
    intros cap hm hg Hm. unfold build_periodic.
    assert (Hw : forall b, In b (hs_bounds sys) -> wf_hops sys (fst b)) by (apply WF).
    revert Hw. induction (hs_bounds sys) as [|b bs IH]; intros Hw Hcap m.
    - exists []. cbn [ofold]. rewrite app_nil_r. split; [reflexivity|]. split; [constructor|]. reflexivity.
    - cbn [ofold].
      destruct (hoppings_ok R V nt sys wf_pos wf_sorted wf_norb cap hm hg (fun p => unshift p (snd b)) (fst b) Hm) as (full & es & E & Sk & P);
        [apply Hw; left; auto|apply Hcap; left; auto|].
      rewrite E. cbn [obind]. rewrite scaled_zt, both_zt.
      assert (IM : Forall (in_mat (hamiltonian_size d)) es) by (eapply entries_in_mat; eauto; apply Hw; left; auto).
      fold d. rewrite puts_ok; [|apply bothn_in_mat; apply scaled_in_mat; exact IM|discriminate].
      cbn [obind].
      destruct (IH ltac:(intros; apply Hw; right; auto) ltac:(intros; apply Hcap; right; auto)
                  (m ++ flat_map (bothn (nt_conj nt)) (map (scaled (nt_cast nt (phase (snd b)))) es))) as (ext & E2 & IM2 & C2).
      fold d in E2. rewrite E2. eexists. rewrite <- app_assoc. split; [reflexivity|]. split.
      + apply Forall_app. split; auto. apply bothn_in_mat. apply scaled_in_mat. exact IM.
      + intros s i t j Hs Ht Hi Hj. rewrite coeff_app, ksum_cons. f_equal; [|apply C2; auto].
        eapply coeff_table; eauto. apply Hw; left; auto.
  Qed.

  (* ---------------- positions are distinct ---------------- *)
  Lemma grid_pos_in : forall r c (T : nat -> nat -> R) p,
    In p (map fst (flat_map (fun i' => map (fun j' => ((row_of d r i', row_of d c j'), T i' j')) (seq 0 (norb_at d c))) (seq 0 (norb_at d r)))) <->
    exists i j, i < norb_at d r /\ j < norb_at d c /\ p = (row_of d r i, row_of d c j).
  Proof.
    intros r c T p. rewrite in_map_iff. split.
    - intros (x & <- & Hx). apply in_flat_map in Hx. destruct Hx as (i & Hi & Hx). apply in_map_iff in Hx.
      destruct Hx as (j & <- & Hj). apply in_seq in Hi. apply in_seq in Hj. exists i, j. cbn [fst]. repeat split; lia.
    - intros (i & j & Hi & Hj & ->). exists ((row_of d r i, row_of d c j), T i j). split; [reflexivity|].
      apply in_flat_map. exists i. split; [apply in_seq; lia|]. apply in_map_iff. exists j. split; [reflexivity|]. apply in_seq; lia.
  Qed.

  Lemma grid_pos_nodup : forall r c (T : nat -> nat -> R), r < rle_size d -> c < rle_size d ->
    NoDup (map fst (flat_map (fun i' => map (fun j' => ((row_of d r i', row_of d c j'), T i' j')) (seq 0 (norb_at d c))) (seq 0 (norb_at d r)))).
  Proof.
    intros r c T Hr Hc. rewrite map_flat_map. apply NoDup_flat_map.
    - apply seq_NoDup.
    - intros i Hi. rewrite map_map. cbn [fst]. apply FinFun.Injective_map_NoDup; [|apply seq_NoDup].
      intros x y E. injection E as E. unfold row_of in E. lia.
    - intros a b x Ha Hb Hxa Hxb. rewrite map_map in Hxa, Hxb. apply in_map_iff in Hxa. apply in_map_iff in Hxb.
      destruct Hxa as (j1 & <- & _). destruct Hxb as (j2 & E & _). cbn [fst] in E. injection E as E _. unfold row_of in E. lia.
  Qed.

  Lemma positions_distinct : forall og hg shift, simple_bonds sys ->
    let S := flat_map (site_entries R V nt sys og) (seq 0 (rle_size d)) in
    let H := flat_map (hop_entries R V nt sys hg shift) (stored (hs_hops sys)) in
    NoDup (map fst S) /\ NoDup (map fst H) /\ NoDup (map (fun t => (snd (fst t), fst (fst t))) H) /\
    (forall p, In p (map fst S) -> ~ In p (map fst H)) /\
    (forall p, In p (map fst S) -> ~ In p (map (fun t => (snd (fst t), fst (fst t))) H)) /\
    (forall p, In p (map fst H) -> ~ In p (map (fun t => (snd (fst t), fst (fst t))) H)).
  Proof.
    intros og hg shift SB S H. unfold simple_bonds in SB. set (l := map snd (stored (hs_hops sys))) in *. cbv zeta in SB.
    assert (Hw : wf_hops sys (hs_hops sys)) by apply WF. destruct Hw as [_ Hw].
    apply NoDup_app_inv in SB. destruct SB as (B1 & B2 & B3).
    assert (HS : forall p, In p (map fst S) <-> exists s i j, s < rle_size d /\ i < norb_at d s /\ j < norb_at d s /\ p = (row_of d s i, row_of d s j)).
    { intros p. unfold S. rewrite map_flat_map, in_flat_map. split.
      - intros (s & Hs & Hp). apply in_seq in Hs. apply grid_pos_in in Hp. destruct Hp as (i & j & Hi & Hj & ->). exists s, i, j. repeat split; auto; lia.
      - intros (s & i & j & Hs & Hi & Hj & ->). exists s. split; [apply in_seq; lia|]. apply grid_pos_in. eauto. }
    assert (HH : forall p, In p (map fst H) <-> exists f c i j, In (f, c) (stored (hs_hops sys)) /\ i < norb_at d (fst c) /\ j < norb_at d (snd c) /\ p = (row_of d (fst c) i, row_of d (snd c) j)).
    { intros p. unfold H. rewrite map_flat_map, in_flat_map. split.
      - intros ([f c] & Hc & Hp). apply grid_pos_in in Hp. destruct Hp as (i & j & Hi & Hj & ->). exists f, c, i, j. auto.
      - intros (f & c & i & j & Hc & Hi & Hj & ->). exists (f, c). split; auto. apply grid_pos_in. eauto. }
    assert (HF : forall p, In p (map (fun t => (snd (fst t), fst (fst t))) H) <-> In (snd p, fst p) (map fst H)).
    { intros [a b]. cbn [fst snd]. rewrite !in_map_iff. split; intros ([[x y] v] & E & I); cbn [fst snd] in *; injection E as -> ->; (eexists; split; [|exact I]; reflexivity). }
    assert (INL : forall f c, In (f, c) (stored (hs_hops sys)) -> In c l /\ In (snd c, fst c) (map (fun c => (snd c, fst c)) l)).
    { intros f c Hc. assert (In c l) by (apply in_map_iff; exists (f, c); auto). split; auto. apply in_map_iff. eauto. }
    assert (SELF : forall f c, In (f, c) (stored (hs_hops sys)) -> fst c <> snd c).
    { intros f [r c] Hc E. cbn [fst snd] in E. subst. destruct (INL f (c, c) Hc) as (I1 & I2). cbn [fst snd] in I2. exact (B3 _ I1 I2). }
    split; [|split; [|split; [|split; [|split]]]].
    - unfold S. rewrite map_flat_map. apply NoDup_flat_map; [apply seq_NoDup| |].
      + intros s Hs. apply in_seq in Hs. apply grid_pos_nodup; lia.
      + intros a b x Ha Hb Hxa Hxb. apply in_seq in Ha. apply in_seq in Hb. apply grid_pos_in in Hxa. apply grid_pos_in in Hxb.
        destruct Hxa as (i1 & j1 & I1 & J1 & ->). destruct Hxb as (i2 & j2 & I2 & J2 & E). injection E as E _.
        apply row_of_inj in E; auto; try lia; tauto.
    - unfold H. rewrite map_flat_map. apply NoDup_flat_map.
      + apply (NoDup_map_inv snd). exact B1.
      + intros [f c] Hc. destruct (Hw f c Hc) as (C1 & C2 & _). apply grid_pos_nodup; auto.
      + intros [f1 c1] [f2 c2] x H1 H2 X1 X2. destruct (Hw f1 c1 H1) as (C1 & C2 & _). destruct (Hw f2 c2 H2) as (D1 & D2 & _).
        apply grid_pos_in in X1. apply grid_pos_in in X2. cbn [fst snd] in *. destruct X1 as (i1 & j1 & I1 & J1 & ->).
        destruct X2 as (i2 & j2 & I2 & J2 & E). injection E as E1 E2. apply row_of_inj in E1; auto. apply row_of_inj in E2; auto.
        assert (c1 = c2) by (destruct c1, c2; cbn [fst snd] in *; f_equal; tauto). subst c2.
        (* same pair, hence same family *)
        clear - H1 H2 B1. unfold l in B1. induction (stored (hs_hops sys)) as [|[f c] ll IH]; [destruct H1|].
        cbn [map snd] in B1. inversion B1 as [|? ? N1 N2]; subst. destruct H1 as [H1|H1], H2 as [H2|H2]; auto.
        * congruence.
        * exfalso. injection H1 as -> ->. apply N1. apply in_map_iff. exists (f2, c1). auto.
        * exfalso. injection H2 as -> ->. apply N1. apply in_map_iff. exists (f1, c1). auto.
    - assert (NH : NoDup (map fst H)).
      { unfold H. rewrite map_flat_map. apply NoDup_flat_map.
        + apply (NoDup_map_inv snd). exact B1.
        + intros [f c] Hc. destruct (Hw f c Hc) as (C1 & C2 & _). apply grid_pos_nodup; auto.
        + intros [f1 c1] [f2 c2] x H1 H2 X1 X2. destruct (Hw f1 c1 H1) as (C1 & C2 & _). destruct (Hw f2 c2 H2) as (D1 & D2 & _).
          apply grid_pos_in in X1. apply grid_pos_in in X2. cbn [fst snd] in *. destruct X1 as (i1 & j1 & I1 & J1 & ->).
          destruct X2 as (i2 & j2 & I2 & J2 & E). injection E as E1 E2. apply row_of_inj in E1; auto. apply row_of_inj in E2; auto.
          assert (c1 = c2) by (destruct c1, c2; cbn [fst snd] in *; f_equal; tauto). subst c2.
          clear - H1 H2 B1. unfold l in B1. induction (stored (hs_hops sys)) as [|[f c] ll IH]; [destruct H1|].
          cbn [map snd] in B1. inversion B1 as [|? ? N1 N2]; subst. destruct H1 as [H1|H1], H2 as [H2|H2]; auto.
          * congruence.
          * exfalso. injection H1 as -> ->. apply N1. apply in_map_iff. exists (f2, c1). auto.
          * exfalso. injection H2 as -> ->. apply N1. apply in_map_iff. exists (f1, c1). auto. }
      rewrite <- (map_map fst (fun c : coo => (snd c, fst c))). apply FinFun.Injective_map_NoDup; auto.
      intros [x y] [x' y'] E. cbn [fst snd] in E. congruence.
    - intros p Hp C. apply HS in Hp. apply HH in C. destruct Hp as (s & i & j & Hs & Hi & Hj & ->).
      destruct C as (f & c & i' & j' & Hc & Hi' & Hj' & E). destruct (Hw f c Hc) as (C1 & C2 & _).
      injection E as E1 E2. apply row_of_inj in E1; auto. apply row_of_inj in E2; auto. apply (SELF f c Hc). destruct E1, E2. congruence.
    - intros p Hp C. apply HS in Hp. apply HF in C. apply HH in C. destruct Hp as (s & i & j & Hs & Hi & Hj & ->).
      destruct C as (f & c & i' & j' & Hc & Hi' & Hj' & E). destruct (Hw f c Hc) as (C1 & C2 & _). cbn [fst snd] in E.
      injection E as E1 E2. apply row_of_inj in E1; auto. apply row_of_inj in E2; auto. apply (SELF f c Hc). destruct E1, E2. congruence.
    - intros p Hp C. apply HF in C. apply HH in Hp. apply HH in C. destruct Hp as (f1 & c1 & i & j & H1 & Hi & Hj & ->).
      destruct C as (f & c & i' & j' & Hc & Hi' & Hj' & E). destruct (Hw f c Hc) as (C1 & C2 & _). destruct (Hw f1 c1 H1) as (D1 & D2 & _). cbn [fst snd] in E.
      injection E as E1 E2. apply row_of_inj in E1; auto. apply row_of_inj in E2; auto.
      apply (B3 c1); [apply (INL f1 c1 H1)|]. apply in_map_iff. exists c. split; [|apply (INL f c Hc)].
      destruct c1, c. cbn [fst snd] in *. f_equal; symmetry; tauto.
  Qed.

  Lemma map_fst_flip : forall cj (ts : list (coo * R)), map fst (map (flip cj) ts) = map (fun t => (snd (fst t), fst (fst t))) ts.
  Proof. intros. rewrite map_map. apply map_ext. intros [[a b] v]. reflexivity. Qed.

  (** C18: the Hamiltonian is built, and its elements are those of the tight-binding model. *)
  Lemma ham_elements : forall cap om og hm hg simple,
    Forall2 os_follows om og -> Forall2 hop_follows hm hg ->
    (forall h, h = hs_hops sys \/ In h (map fst (hs_bounds sys)) -> cap_ok R V sys cap h) ->
    (simple = true -> simple_bonds sys) ->
    exists m, ham_make cap nt sys om hm unshift phase simple = Ok m /\
      (forall e, In e m -> fst (fst e) < hamiltonian_size d /\ snd (fst e) < hamiltonian_size d) /\
      forall s i t j, s < rle_size d -> t < rle_size d -> i < norb_at d s -> j < norb_at d t ->
        coeff m (row_of d s i) (row_of d t j) = element nt sys og hg unshift phase s i t j.
  Proof.
    intros cap om og hm hg simple Ho Hh Hcap Hs. unfold ham_make, build_main.
    destruct (onsite_ok om og Ho) as (fo & Eo & Po). rewrite Eo. cbn [obind].
    assert (Hw : wf_hops sys (hs_hops sys)) by apply WF.
    destruct (hoppings_ok R V nt sys wf_pos wf_sorted wf_norb cap hm hg (fun p => p) (hs_hops sys) Hh Hw) as (full & es & E & Sk & P); [apply Hcap; auto|].
    rewrite E. cbn [obind]. rewrite both_zt, <- map_app.
    assert (IMo : Forall (in_mat (hamiltonian_size d)) (filter nz fo)).
    { apply Forall_forall. intros t Ht. apply filter_In in Ht. destruct Ht as [Ht _]. apply (Permutation_in _ Po) in Ht.
      apply in_flat_map in Ht. destruct Ht as (s & Hs' & Ht). apply in_seq in Hs'. unfold site_entries in Ht.
      apply in_flat_map in Ht. destruct Ht as (i & Hi & Ht). apply in_map_iff in Ht. destruct Ht as (j & <- & Hj).
      apply in_seq in Hi. apply in_seq in Hj. fold d in Hi, Hj. unfold in_mat. cbn [fst snd]. split; apply row_of_lt; lia. }
    assert (IM : Forall (in_mat (hamiltonian_size d)) es) by (eapply entries_in_mat; eauto).
    fold d. rewrite puts_ok; cbn [app].
    - cbn [obind].
      destruct (periodic_ok cap hm hg Hh) with (m := filter nz fo ++ flat_map (bothn (nt_conj nt)) es) as (ext & E2 & IM2 & C2).
      { intros b Hb. apply Hcap. right. apply in_map. exact Hb. }
      rewrite E2. eexists. split; [reflexivity|]. split.
      + assert (A : Forall (in_mat (hamiltonian_size d)) ((filter nz fo ++ flat_map (bothn (nt_conj nt)) es) ++ ext)).
        { apply Forall_app. split; auto. apply Forall_app. split; auto. apply bothn_in_mat. auto. }
        rewrite Forall_forall in A. exact A.
      + intros s i t j Hs' Ht Hi Hj. rewrite !coeff_app, C2 by auto. unfold element. f_equal. f_equal.
        * rewrite coeff_nz, (coeff_perm _ _ _ _ _ Po). apply coeff_sites; auto.
        * assert (S1 : map (scaled k1) es = es).
          { rewrite <- (map_id es) at 2. apply map_ext. intros [c v]. unfold scaled. cbn [fst snd]. f_equal. ring. }
          rewrite <- S1 at 1. erewrite coeff_table; eauto. apply ksum_ext. intros [f c] _. unfold hop_part. cbn [fst snd].
          f_equal; [destruct (_ && _); [ring|reflexivity]|]. destruct (_ && _); [f_equal; ring|reflexivity].
    - apply Forall_app. split; auto. apply bothn_in_mat. auto.
    - intros St. destruct (positions_distinct og hg (fun p => p) (Hs St)) as (N1 & N2 & N3 & D1 & D2 & D3).
      set (SS := flat_map (site_entries R V nt sys og) (seq 0 (rle_size d))) in *.
      set (HH := flat_map (hop_entries R V nt sys hg (fun p => p)) (stored (hs_hops sys))) in *.
      assert (PF : Permutation (map fst (flat_map (bothn (nt_conj nt)) es)) (map fst es ++ map (fun t => (snd (fst t), fst (fst t))) es)).
      { rewrite <- (map_fst_flip (nt_conj nt)), <- map_app. apply Permutation_map. apply bothn_perm. }
      rewrite map_app. apply (Permutation_NoDup (l := map fst (filter nz fo) ++ map fst es ++ map (fun t => (snd (fst t), fst (fst t))) es)).
      { apply Permutation_app_head. symmetry. exact PF. }
      assert (Q1 : NoDup (map fst full)) by (apply (Permutation_NoDup (l := map fst HH)); [symmetry; apply Permutation_map; exact P|exact N2]).
      assert (Q2 : NoDup (map (fun t => (snd (fst t), fst (fst t))) full)) by (apply (Permutation_NoDup (l := map (fun t => (snd (fst t), fst (fst t))) HH)); [symmetry; apply Permutation_map; exact P|exact N3]).
      assert (Q3 : NoDup (map fst fo)) by (apply (Permutation_NoDup (l := map fst SS)); [symmetry; apply Permutation_map; exact Po|exact N1]).
      assert (SUB : forall x, In x es -> In x HH).
      { intros x Hx. apply (Permutation_in _ P). destruct Sk as [-> | ->]; [auto|apply filter_In in Hx; tauto]. }
      assert (SUBo : forall x, In x (filter nz fo) -> In x SS) by (intros x Hx; apply filter_In in Hx; apply (Permutation_in _ Po); tauto).
      assert (MS : forall {A B} (g : A -> B) (l1 l2 : list A), (forall x, In x l1 -> In x l2) -> forall p, In p (map g l1) -> In p (map g l2)).
      { clear. intros A B g l1 l2 H p Hp. apply in_map_iff in Hp. destruct Hp as (x & <- & Hx). apply in_map. auto. }
      apply NoDup_app_intro.
      + apply NoDup_map_filter. exact Q3.
      + apply NoDup_app_intro.
        * destruct Sk as [-> | ->]; [auto|apply NoDup_map_filter; auto].
        * destruct Sk as [-> | ->]; [auto|apply NoDup_map_filter; auto].
        * intros p H1 H2. apply (D3 p); [apply (MS _ _ fst es HH); auto|eapply MS; [|exact H2]; auto].
      + intros p H1 H2. apply (MS _ _ fst _ SS SUBo) in H1. apply in_app_iff in H2. destruct H2 as [H2|H2].
        * apply (D1 p H1). apply (MS _ _ fst es HH); auto.
        * apply (D2 p H1). eapply MS; [|exact H2]; auto.
  Qed.
End F.
