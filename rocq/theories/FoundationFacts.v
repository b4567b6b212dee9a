(* Lemmas behind the property theorems C05-C08. *)
From Verif Require Import Base Rle RleProofs Blocks Foundation Scalar Lattice LatticeSpec LatticeProofs IndexProofs PositionProofs DanglingGraph DanglingProofs FinalProofs UnitCellProofs FoundationSpec.
From Coq Require Import Permutation.

(* ------------------------------------------------------------------ C05 *)
Lemma place_flat : forall size i a, place size i a = Z.to_nat (flat_of size i (Z.of_nat a)).
Proof. intros. unfold place, flat_of. f_equal. ring. Qed.

Lemma nbs_eq : forall size nsub, pos_size size -> Z.to_nat (f_size size nsub) = num_block_sites size nsub.
Proof. intros. apply f_size_nat. auto. Qed.

Lemma place_bij : forall size nsub, positive_block size ->
  (forall i a, cell_of size i -> a < nsub -> place size i a < num_block_sites size nsub) /\
  (forall i a j b, cell_of size i -> cell_of size j -> place size i a = place size j b -> i = j /\ a = b) /\
  (forall k, k < num_block_sites size nsub -> exists i a, cell_of size i /\ a < nsub /\ place size i a = k).
Proof.
  intros size nsub H. rewrite <- nbs_eq by auto. split; [|split].
  - intros i a Hi Ha. rewrite place_flat. pose proof (flat_bounds size i (Z.of_nat a) nsub Hi ltac:(lia)). lia.
  - intros i a j b Hi Hj E. rewrite !place_flat in E.
    pose proof (flat_bounds size i (Z.of_nat a) (S a) Hi ltac:(lia)). pose proof (flat_bounds size j (Z.of_nat b) (S b) Hj ltac:(lia)).
    assert (E2 : flat_of size i (Z.of_nat a) = flat_of size j (Z.of_nat b)) by lia.
    apply flat_inj in E2; auto. split; [tauto|lia].
  - intros k Hk. destruct (unflat_in size (Z.of_nat k) nsub H ltac:(lia)) as [C D].
    exists (s_idx (unflat size (Z.of_nat k))), (Z.to_nat (s_sub (unflat size (Z.of_nat k)))).
    split; [exact C|]. split; [lia|]. rewrite place_flat, Z2Nat.id by lia. rewrite flat_unflat by auto. lia.
Qed.

Lemma all_sites_nth : forall size nsub, positive_block size ->
  length (all_sites size nsub) = num_block_sites size nsub /\
  (forall k s, nth_error (all_sites size nsub) k = Some s ->
     s_flat s = Z.of_nat k /\ cell_of size (s_idx s) /\
     exists a, a < nsub /\ s_sub s = Z.of_nat a /\ place size (s_idx s) a = k).
Proof.
  intros size nsub H. rewrite all_sites_eq by auto. rewrite map_length, seq_length, nbs_eq by auto. split; [reflexivity|].
  intros k s E. rewrite nth_error_map in E. destruct (nth_error (seq _ _) k) as [x|] eqn:En; [|discriminate].
  assert (Hk : k < num_block_sites size nsub).
  { rewrite <- (seq_length (num_block_sites size nsub) 0). apply nth_error_Some. congruence. }
  assert (x = k). { apply nth_error_nth with (d := 0) in En. rewrite seq_nth in En by auto. lia. }
  subst x. injection E as <-. rewrite <- nbs_eq in Hk by auto.
  destruct (unflat_in size (Z.of_nat k) nsub H ltac:(lia)) as [C D].
  split; [reflexivity|]. split; [exact C|]. exists (Z.to_nat (s_sub (unflat size (Z.of_nat k)))).
  split; [lia|]. split; [lia|]. rewrite place_flat, Z2Nat.id by lia. rewrite flat_unflat by auto. lia.
Qed.

Lemma incr_map_seq : forall (f : Z -> Z) n, (forall m, (0 <= m)%Z -> (f m < f (m + 1))%Z) ->
  strictly_increasing (map (fun k => f (Z.of_nat k)) (seq 0 n)).
Proof.
  intros f n H i j a b Hij Ha Hb. rewrite nth_error_map in Ha, Hb.
  destruct (nth_error (seq 0 n) i) as [x|] eqn:Ei; [|discriminate]. destruct (nth_error (seq 0 n) j) as [y|] eqn:Ej; [|discriminate].
  injection Ha as <-. injection Hb as <-.
  assert (Hj : j < n) by (rewrite <- (seq_length n 0); apply nth_error_Some; congruence).
  apply nth_error_nth with (d := 0) in Ei, Ej. rewrite seq_nth in Ei, Ej by lia. subst x y. cbn [Nat.add].
  replace j with (i + S (j - S i)) by lia. generalize (j - S i) as d. clear -H.
  induction d as [|d IH].
  - replace (Z.of_nat (i + 1)) with (Z.of_nat i + 1)%Z by lia. apply H. lia.
  - replace (Z.of_nat (i + S (S d))) with (Z.of_nat (i + S d) + 1)%Z by lia. specialize (H (Z.of_nat (i + S d))). lia.
Qed.

Lemma slice_facts : forall size nsub r, positive_block size -> slice_inside size r ->
  (forall s, In s (slice_sites size nsub r) <->
     selected size r (s_idx s) /\ exists a, a < nsub /\ s_sub s = Z.of_nat a /\ s_flat s = Z.of_nat (place size (s_idx s) a)) /\
  strictly_increasing (map s_flat (slice_sites size nsub r)).
Proof.
  intros size nsub r H IN.
  assert (SEL : forall i, selected size r i <-> in_slice (normalize size r) i).
  { intros i. unfold selected, in_slice, normalize, normalize1. cbn [slx sly slz].
    destruct (sl_end (slx r) <? 0)%Z, (sl_end (sly r) <? 0)%Z, (sl_end (slz r) <? 0)%Z; cbn [sl_start sl_end]; tauto. }
  assert (INS : (0 <= sl_start (slx (normalize size r)) /\ sl_end (slx (normalize size r)) <= ix size /\
                0 <= sl_start (sly (normalize size r)) /\ sl_end (sly (normalize size r)) <= iy size /\
                0 <= sl_start (slz (normalize size r)) /\ sl_end (slz (normalize size r)) <= iz size)%Z).
  { unfold slice_inside in IN. unfold normalize, normalize1. cbn [slx sly slz].
    destruct (sl_end (slx r) <? 0)%Z, (sl_end (sly r) <? 0)%Z, (sl_end (slz r) <? 0)%Z; cbn [sl_start sl_end]; lia. }
  destruct INS as (X0 & X1 & Y0 & Y1 & Z0 & Z1).
  assert (D : slice_nonempty (normalize size r) \/ (slice_sites size nsub r = [] /\ forall i, ~ in_slice (normalize size r) i)).
  { unfold slice_nonempty, pos_size, slice_dims, in_slice. cbn [ix iy iz].
    unfold slice_sites, slice3_size, slice_size. set (q := normalize size r) in *.
    destruct (Z.ltb_spec (sl_start (slx q)) (sl_end (slx q))); [|right; split; [reflexivity|intros i; lia]].
    destruct (Z.ltb_spec (sl_start (sly q)) (sl_end (sly q))); [|right; split; [rewrite Z.mul_0_r; reflexivity|intros i; lia]].
    destruct (Z.ltb_spec (sl_start (slz q)) (sl_end (slz q))); [|right; split; [rewrite !Z.mul_0_r; reflexivity|intros i; lia]].
    left. lia. }
  destruct D as [D|[D1 D2]].
  2:{ rewrite D1. split.
    - intros s. rewrite SEL. split; [intros []|intros [A _]; apply (D2 _ A)].
    - intros i j a b _ A. destruct i; discriminate. }
  split.
  - intros s. rewrite SEL. rewrite slice_sites_in by auto. split.
    + intros (A & B & C). split; auto. exists (Z.to_nat (s_sub s)). split; [lia|]. split; [lia|].
      rewrite place_flat, (Z2Nat.id (s_sub s)) by lia. rewrite C.
      pose proof (flat_bounds size (s_idx s) (s_sub s) nsub ltac:(unfold cell_in, in_slice in *; lia) B). lia.
    + intros (A & a & Ha & Es & Ef). split; auto. split; [lia|]. rewrite Ef, place_flat, Es.
      pose proof (flat_bounds size (s_idx s) (Z.of_nat a) nsub ltac:(unfold cell_in, in_slice in *; lia) ltac:(lia)). lia.
  - rewrite slice_sites_eq by auto. rewrite map_map.
    apply (incr_map_seq (fun m => s_flat (slice_at size (normalize size r) m))).
    intros m Hm. apply slice_at_incr; auto.
Qed.

(** The sublattice slice visits the right array indices and cells; its sublattice number is off. *)
Lemma sub_slice_facts : forall size k, positive_block size ->
  length (sub_slice_sites size k) = num_block_sites size 1 /\
  (forall n s, nth_error (sub_slice_sites size k) n = Some s ->
     s_flat s = Z.of_nat (k * num_block_sites size 1 + n) /\ cell_of size (s_idx s) /\
     Z.of_nat (place size (s_idx s) k) = s_flat s /\ s_sub s = 0%Z).
Proof.
  intros size k H.
  set (g := fun m => let u := unflat size m in Site (s_idx u) (s_sub u) (Z.of_nat k * prod3 size + m)).
  assert (E : sub_slice_sites size k = map (fun n => g (Z.of_nat n)) (seq 0 (Z.to_nat (prod3 size)))).
  { unfold sub_slice_sites. replace (Site zero3 0 (Z.of_nat k * prod3 size)) with (g 0%Z).
    - rewrite (walk_map _ g); [apply map_ext; intros; f_equal; lia|].
      intros m _. unfold g. rewrite <- it_next_unflat by auto. unfold it_next. 
      destruct (unflat size m) as [i sub fl]. cbn [s_idx s_sub s_flat].
      destruct (ix i + 1 =? ix size)%Z; [destruct (iy i + 1 =? iy size)%Z; [destruct (iz i + 1 =? iz size)%Z|]|]; cbn [s_idx s_sub]; f_equal; lia.
    - unfold g. rewrite unflat_0 by auto. cbn [s_idx s_sub]. f_equal. lia. }
  assert (NB : num_block_sites size 1 = Z.to_nat (prod3 size)) by (unfold num_block_sites, prod3; lia).
  rewrite NB. split; [rewrite E, map_length, seq_length; reflexivity|].
  intros n s En. rewrite E, nth_error_map in En. destruct (nth_error (seq _ _) n) as [x|] eqn:Ex; [|discriminate].
  assert (Hn : n < Z.to_nat (prod3 size)) by (rewrite <- (seq_length (Z.to_nat (prod3 size)) 0); apply nth_error_Some; congruence).
  apply nth_error_nth with (d := 0) in Ex. rewrite seq_nth in Ex by auto. subst x. injection En as <-.
  pose proof (prod3_pos size H) as PP. cbn [Nat.add].
  destruct (unflat_in size (Z.of_nat n) 1 H) as [C D]; [unfold f_size; lia|].
  unfold g. cbn [s_flat s_idx s_sub]. split; [nia|]. split; [exact C|]. split; [|lia].
  rewrite place_flat. pose proof (flat_unflat size (Z.of_nat n) H) as F.
  assert (F2 : flat_of size (s_idx (unflat size (Z.of_nat n))) (Z.of_nat k) = (Z.of_nat k * prod3 size + Z.of_nat n)%Z).
  { rewrite <- F at 2. assert (Es : s_sub (unflat size (Z.of_nat n)) = 0%Z) by lia. rewrite Es. unfold flat_of, prod3. ring. }
  rewrite F2. rewrite Z2Nat.id; [reflexivity|nia].
Qed.

Lemma positions_facts : forall P (padd : P -> P -> P) (pscale : Z -> P -> P),
  (forall p v, padd p (pscale 0%Z v) = p) ->
  forall origin size vecs (uc : list (usite P)), positive_block size ->
  0 < length vecs -> (length vecs < 2 -> iy size = 1%Z) -> (length vecs < 3 -> iz size = 1%Z) ->
  exists pos, generate_positions P padd pscale origin size vecs uc = Ok pos /\
    length pos = num_block_sites size (length uc) /\
    forall i a u, cell_of size i -> nth_error uc a = Some u ->
      nth_error pos (place size i a) =
      Some (let along d n p := match nth_error vecs d with Some v => padd p (pscale n v) | None => p end in
            along 0 (ix i) (along 1 (iy i) (along 2 (iz i) (padd origin (u_pos u))))).
Proof.
  intros P padd pscale H0 origin size vecs uc Hs D0 D1 D2.
  destruct (generate_positions_ok P padd pscale H0 origin size vecs uc Hs) as (pos & E & L & G).
  - unfold dims_ok. split; [lia|]. split; auto.
  - exists pos. split; [exact E|]. split; [rewrite L; apply nbs_eq; auto|].
    intros i a u Hi Ha. rewrite place_flat. rewrite (G i a u) by auto. reflexivity.
Qed.

(* ------------------------------------------------------------------ C06 *)
Lemma in_cells_block : forall size i, in_cells size i = in_block size i.
Proof.
  intros. apply Bool.eq_iff_eq_true. rewrite in_block_spec. unfold in_cells, cell_in.
  rewrite !andb_true_iff, !Z.leb_le, !Z.ltb_lt. tauto.
Qed.

(** Trimming that starts from the invalid sites in any order [sites]. *)
Definition remove_dangling_from {P} (sites : list site) (size : idx3) (uc : list (usite P)) (m : Z) (valid : list bool) : outcome (list bool) :=
  obind (count_neighbors size uc) (fun counts =>
  omap fst
    (ofold (fun st s => obind (agetZ (fst st) (s_flat s)) (fun v =>
              if negb v then clear_neighbors (S (length valid)) size uc m s st else Ok st))
           sites (valid, counts))).

Lemma remove_dangling_all : forall P size (uc : list (usite P)) m valid,
  remove_dangling size uc m valid = remove_dangling_from (all_sites size (length uc)) size uc m valid.
Proof. reflexivity. Qed.

Section Trim.
  Context {P : Type}.
  Variable size : idx3.
  Variable uc : list (usite P).
  Hypothesis Hsize : positive_block size.
  Hypothesis Huc : uc_ok uc.
  Notation N := (num_block_sites size (length uc)).

  Lemma N_eq : Z.to_nat (f_size size (length uc)) = N.
  Proof. apply nbs_eq. auto. Qed.

  Definition bs_of (v : nat) : bsite := (s_idx (unflat size (Z.of_nat v)), Z.to_nat (s_sub (unflat size (Z.of_nat v)))).

  Lemma bs_of_in : forall v, v < N -> bsite_in size uc (bs_of v) /\ place size (fst (bs_of v)) (snd (bs_of v)) = v.
  Proof.
    intros v Hv. rewrite <- N_eq in Hv. destruct (unflat_in size (Z.of_nat v) (length uc) Hsize ltac:(lia)) as [C D].
    split; [split; cbn [bs_of fst snd]; [exact C|lia]|]. rewrite place_flat. cbn [bs_of fst snd]. rewrite Z2Nat.id by lia.
    rewrite flat_unflat by auto. lia.
  Qed.

  Lemma bs_of_place : forall i a, cell_of size i -> bs_of (place size i a) = (i, a).
  Proof.
    intros i a Hi. unfold bs_of. rewrite place_flat.
    pose proof (flat_bounds size i (Z.of_nat a) (S a) Hi ltac:(lia)) as B.
    rewrite Z2Nat.id by lia. rewrite unflat_flat by auto. cbn [mk_site s_idx s_sub]. rewrite Nat2Z.id. reflexivity.
  Qed.

  Lemma place_lt : forall s, bsite_in size uc s -> place size (fst s) (snd s) < N.
  Proof. intros s [A B]. apply (place_bij size (length uc)); auto. Qed.

  Lemma nbf_bn : forall v, v < N ->
    nbf size uc v = map (fun t => place size (fst t) (snd t)) (block_neighbours size uc (bs_of v)).
  Proof.
    intros v Hv. rewrite <- N_eq in Hv.
    destruct (neighbors_ok size uc Hsize v Hv) as (u & E & _ & L). unfold nbf, block_neighbours, bs_of. cbn [fst snd].
    rewrite E, L, map_map.
    assert (F : forall hs i,
       map (fun x => Z.to_nat (s_flat (fst (mk_site size (add3 i (h_rel x)) (Z.of_nat (h_to x)), x))))
         (filter (fun h => in_block size (add3 i (h_rel h))) hs)
       = map (fun t => place size (fst t) (snd t)) (filter (fun t => in_cells size (fst t)) (map (fun h => (shifted_cell i (h_rel h), h_to h)) hs))).
    { induction hs as [|h hs IH]; intros i; [reflexivity|]. cbn [map filter fst]. rewrite in_cells_block.
      change (shifted_cell i (h_rel h)) with (add3 i (h_rel h)). destruct (in_block size (add3 i (h_rel h))); cbn [map]; rewrite <- IH; [|reflexivity].
      f_equal. rewrite place_flat. reflexivity. }
    apply F.
  Qed.

  Lemma bn_in : forall s t, bsite_in size uc s -> In t (block_neighbours size uc s) -> bsite_in size uc t.
  Proof.
    intros s t [A B] H. unfold block_neighbours in H. destruct (nth_error uc (snd s)) as [u|] eqn:E; [|contradiction].
    apply filter_In in H. destruct H as [H1 H2]. rewrite in_cells_block in H2. apply in_block_spec in H2.
    apply in_map_iff in H1. destruct H1 as (h & <- & Hh). split; [exact H2|]. cbn [snd]. eapply uc_to; eauto.
  Qed.

  Lemma filter_map_comm : forall {A B} (f : A -> B) (p : B -> bool) l, filter p (map f l) = map f (filter (fun x => p (f x)) l).
  Proof. induction l as [|x l IH]; [reflexivity|]. cbn. destruct (p (f x)); cbn; rewrite IH; reflexivity. Qed.

  Lemma degree_nbf : forall (K : nat -> bool) s, bsite_in size uc s ->
    countb K (nbf size uc (place size (fst s) (snd s))) = degree_in size uc (fun t => K (place size (fst t) (snd t))) s.
  Proof.
    intros K s Hs. rewrite nbf_bn by (apply place_lt; auto). rewrite bs_of_place by apply Hs.
    unfold countb, degree_in. rewrite filter_map_comm, map_length. destruct s; reflexivity.
  Qed.

  Lemma degree_ext : forall K K' s, bsite_in size uc s -> (forall t, bsite_in size uc t -> K t = K' t) ->
    degree_in size uc K s = degree_in size uc K' s.
  Proof.
    intros K K' s Hs H. unfold degree_in. f_equal. apply filter_ext_in. intros t Ht. apply H. eapply bn_in; eauto.
  Qed.

  Lemma closed_keep : forall m (K : nat -> bool),
    closed_set N (nbf size uc) m K <-> keep_or_untouched size uc m (fun t => K (place size (fst t) (snd t))).
  Proof.
    intros m K.
    assert (F : forall s, bsite_in size uc s ->
       (forall w, In w (nbf size uc (place size (fst s) (snd s))) -> K w = true) <->
       degree_in size uc (fun t => K (place size (fst t) (snd t))) s = length (block_neighbours size uc s)).
    { intros s Hs. rewrite <- degree_nbf by auto. rewrite <- (countb_full K).
      rewrite nbf_bn by (apply place_lt; auto). rewrite map_length. rewrite bs_of_place by apply Hs. destruct s; reflexivity. }
    split.
    - intros H s Hs E. destruct (H (place size (fst s) (snd s)) (place_lt s Hs) E) as [A|A].
      + left. rewrite <- degree_nbf by auto. exact A.
      + right. apply F; auto.
    - intros H v Hv E. destruct (bs_of_in v Hv) as [B1 B2]. specialize (H (bs_of v) B1). cbv beta in H. rewrite B2 in H. destruct (H E) as [A|A].
      + left. rewrite <- degree_nbf in A by auto. rewrite B2 in A. exact A.
      + right. pose proof (proj2 (F _ B1) A) as A2. rewrite B2 in A2. exact A2.
  Qed.

  Lemma keep_ext : forall m K K', (forall t, bsite_in size uc t -> K t = K' t) ->
    keep_or_untouched size uc m K -> keep_or_untouched size uc m K'.
  Proof.
    intros m K K' H A s Hs E. rewrite <- !(degree_ext K K' s Hs H). apply A; auto. rewrite H; auto.
  Qed.

  Lemma trim_from_eq : forall sites m valid, Permutation sites (all_sites size (length uc)) -> length valid = N ->
    exists valid', remove_dangling_from sites size uc m valid = Ok valid' /\ length valid' = N /\
      (forall u, nth u valid' false = true -> nth u valid false = true) /\
      closed_set N (nbf size uc) m (fun u => nth u valid' false) /\
      (forall T, (forall u, u < N -> T u = true -> nth u valid false = true) -> closed_set N (nbf size uc) m T ->
         forall u, u < N -> T u = true -> nth u valid' false = true).
  Proof.
    intros sites m valid HP LV. rewrite all_sites_eq in HP by auto. rewrite N_eq in HP. rewrite <- N_eq in LV.
    apply Permutation_map_inv in HP. destruct HP as (ord & -> & HO).
    destruct (count_neighbors_ok size uc Hsize) as (counts & EC & LC & CN).
    destruct (aremove_greatest _ (nbf size uc) m (nbf_range size uc Hsize Huc) (nbf_nodup size uc Hsize Huc) (nbf_sym size uc Hsize Huc) ord valid counts LV LC CN) as
      (valid' & E & R).
    - intros v. rewrite N_eq. split; intros H.
      + apply Permutation_sym in HO. apply (Permutation_in _ HO) in H. apply in_seq in H. lia.
      + apply (Permutation_in _ HO). apply in_seq. lia.
    - exists valid'. rewrite N_eq in R. split; [|exact R]. unfold remove_dangling_from. rewrite EC. cbn [obind].
      rewrite <- E. unfold aremove. f_equal.
      assert (HL : forall v, In v ord -> v < Z.to_nat (f_size size (length uc))).
      { intros v Hv. rewrite N_eq. apply Permutation_sym in HO. apply (Permutation_in _ HO) in Hv. apply in_seq in Hv. lia. }
      assert (G : forall l st, (forall v, In v l -> v < Z.to_nat (f_size size (length uc))) ->
        ofold (fun st s => obind (agetZ (fst st) (s_flat s)) (fun v =>
              if negb v then clear_neighbors (S (length valid)) size uc m s st else Ok st))
           (map (fun k => unflat size (Z.of_nat k)) l) st
        = ofold (fun st v => obind (aget (fst st) v) (fun b =>
              if negb b then aclear (nbf size uc) m (S (length valid)) v st else Ok st)) l st).
      { induction l as [|v l IH]; intros st Hl; [reflexivity|]. cbn [map ofold].
        rewrite (clear_sim size uc Hsize Huc) by (apply Hl; left; auto).
        change (s_flat (unflat size (Z.of_nat v))) with (Z.of_nat v). rewrite agetZ_nat.
        destruct (aget (fst st) v) as [b| |]; cbn [obind]; auto.
        destruct (if negb b then _ else _); cbn [obind]; auto. apply IH. intros; apply Hl; right; auto. }
      apply G. exact HL.
  Qed.

  (** The result in terms of sites. *)
  Lemma trim_sites : forall sites m valid, Permutation sites (all_sites size (length uc)) -> length valid = N ->
    exists valid', remove_dangling_from sites size uc m valid = Ok valid' /\ length valid' = N /\
      subset_of size uc (flagged size valid') (flagged size valid) /\
      keep_or_untouched size uc m (flagged size valid') /\
      (forall T, subset_of size uc T (flagged size valid) -> keep_or_untouched size uc m T ->
         subset_of size uc T (flagged size valid')).
  Proof.
    intros sites m valid HP LV. destruct (trim_from_eq sites m valid HP LV) as (valid' & E & L & A & B & C).
    exists valid'. split; [exact E|]. split; [exact L|]. split; [|split].
    - intros s Hs. apply A.
    - apply (proj1 (closed_keep m (fun u => nth u valid' false))). exact B.
    - intros T T1 T2 s Hs Es. unfold flagged.
      apply (C (fun v => T (bs_of v))).
      + intros u Hu Eu. destruct (bs_of_in u Hu) as [B1 B2]. specialize (T1 _ B1 Eu). unfold flagged in T1. rewrite B2 in T1. exact T1.
      + apply closed_keep. eapply keep_ext; [|exact T2]. intros t Ht. cbn. rewrite bs_of_place by apply Ht. destruct t; reflexivity.
      + apply place_lt; auto.
      + rewrite bs_of_place by apply Hs. destruct s; exact Es.
  Qed.

  Lemma trim_core : forall sites m valid valid', Permutation sites (all_sites size (length uc)) -> length valid = N ->
    (forall s, bsite_in size uc s -> flagged size valid s = true -> (m <= Z.of_nat (length (block_neighbours size uc s)))%Z) ->
    remove_dangling_from sites size uc m valid = Ok valid' ->
    is_core size uc m (flagged size valid) (flagged size valid').
  Proof.
    intros sites m valid valid' HP LV D E. destruct (trim_sites sites m valid HP LV) as (v2 & E2 & L & A & B & C).
    assert (v2 = valid') by congruence. subst v2. split; [exact A|]. split.
    - intros s Hs Es. destruct (B s Hs Es) as [X|X]; [exact X|]. rewrite X. apply D; auto.
    - intros T T1 T2. apply C; auto. intros s Hs Es. left. apply T2; auto.
  Qed.

  Lemma place_ext : forall v w : list bool, length v = N -> length w = N ->
    (forall s, bsite_in size uc s -> flagged size v s = flagged size w s) -> v = w.
  Proof.
    intros v w Lv Lw H. apply (nth_ext v w false false); [congruence|].
    intros k Hk. destruct (bs_of_in k ltac:(lia)) as [B1 B2]. specialize (H _ B1). unfold flagged in H. rewrite B2 in H. exact H.
  Qed.
End Trim.

(** Two listings of the same neighbours, walked from any site order, give the same flags. *)
Lemma trim_unique : forall P size (uc1 uc2 : list (usite P)) m valid s1 s2,
  positive_block size -> uc_ok uc1 -> uc_ok uc2 -> length uc1 = length uc2 ->
  (forall s, Permutation (block_neighbours size uc1 s) (block_neighbours size uc2 s)) ->
  Permutation s1 (all_sites size (length uc1)) -> Permutation s2 (all_sites size (length uc2)) ->
  length valid = num_block_sites size (length uc1) ->
  remove_dangling_from s1 size uc1 m valid = remove_dangling_from s2 size uc2 m valid.
Proof.
  intros P size uc1 uc2 m valid s1 s2 Hs U1 U2 LE PB P1 P2 LV.
  destruct (trim_sites size uc1 Hs U1 s1 m valid P1 LV) as (v1 & E1 & L1 & A1 & B1 & C1).
  destruct (trim_sites size uc2 Hs U2 s2 m valid P2) as (v2 & E2 & L2 & A2 & B2 & C2); [congruence|].
  rewrite E1, E2. f_equal.
  assert (DG : forall K s, degree_in size uc1 K s = degree_in size uc2 K s).
  { intros K s. unfold degree_in. apply Permutation_length. specialize (PB s). clear -PB.
    induction PB; cbn; auto; [destruct (K x); auto|destruct (K x), (K y); auto; apply perm_swap|eapply perm_trans; eauto]. }
  assert (BI : forall s, bsite_in size uc1 s <-> bsite_in size uc2 s) by (intros s; unfold bsite_in; rewrite LE; tauto).
  apply (place_ext size uc1 Hs); auto; [congruence|].
  intros s Is. apply Bool.eq_iff_eq_true. split.
  - intros X. apply (C2 (flagged size v1)); auto; [| |apply BI; auto].
    + intros t Ht. apply A1. apply BI; auto.
    + intros t Ht Et. rewrite <- DG, <- (Permutation_length (PB t)). apply B1; auto. apply BI; auto.
  - intros X. apply (C1 (flagged size v2)); auto.
    + intros t Ht. apply A2. apply BI; auto.
    + intros t Ht Et. rewrite DG, (Permutation_length (PB t)). apply B2; auto. apply BI; auto.
Qed.
