(* The boundaries collected by populate_boundaries. *)
From Verif Require Import Base Rle RleProofs Blocks BlocksProofs Foundation Scalar Lattice LatticeSpec LatticeProofs IndexProofs PositionProofs DanglingGraph DanglingProofs FinalProofs UnitCellProofs FoundationSpec FoundationFacts PopulateFacts Symmetry SymmetrySpec SymmetryProofs.
From Coq Require Import Permutation.

Section Bound.
  Context {P : Type}.
  Variable size : idx3.
  Variable uc : list (usite P).
  Variable nfam : nat.
  Hypothesis Hsize : positive_block size.
  Hypothesis Huc : uc_ok uc.
  Hypothesis Hfam : forall u h, In u uc -> In h (u_hops u) -> h_fam h < nfam.
  Variable valid : list bool.
  Notation N := (num_block_sites size (length uc)).
  Hypothesis Hvalid : length valid = N.
  Variable fin : list Z.
  Hypothesis Hfin_len : length fin = N.
  Hypothesis Hfin : forall i, i < N -> nth i fin 0%Z = if nth i valid false then Z.of_nat (number valid i) else (-1)%Z.

  Lemma fin_at : forall k, k < N -> agetZ fin (Z.of_nat k) = Ok (if nth k valid false then Z.of_nat (number valid k) else (-1)%Z).
  Proof. intros k Hk. rewrite agetZ_nat, (aget_ok fin k 0%Z) by lia. rewrite Hfin by lia. reflexivity. Qed.

  Definition pairs_to (f r : nat) (x : site * hop) : list coo :=
    let t := Z.to_nat (s_flat (fst x)) in
    if nth t valid false && negb (h_conj (snd x)) && (h_fam (snd x) =? f) then [(r, number valid t)] else [].

  Lemma add_hops_gen : forall l r hb, length (hb_blocks hb) = nfam ->
    (forall x, In x l -> (0 <= s_flat (fst x) < Z.of_nat N)%Z /\ h_fam (snd x) < nfam) ->
    exists hb', add_neighbor_hops fin (Z.of_nat r) l hb = Ok hb' /\ hb_n hb' = hb_n hb /\ length (hb_blocks hb') = nfam /\
      forall f, f < nfam -> nth f (hb_blocks hb') [] = nth f (hb_blocks hb) [] ++ flat_map (pairs_to f r) l.
  Proof.
    induction l as [|[s h] l IH]; intros r hb Hb Hl; unfold add_neighbor_hops; cbn [ofold].
    - exists hb. repeat split; auto. intros. cbn. rewrite app_nil_r. reflexivity.
    - destruct (Hl _ (or_introl eq_refl)) as [B Ff]. cbn [fst snd] in *.
      assert (AG : agetZ fin (s_flat s) = Ok (if nth (Z.to_nat (s_flat s)) valid false then Z.of_nat (number valid (Z.to_nat (s_flat s))) else (-1)%Z)).
      { rewrite <- (Z2Nat.id (s_flat s)) at 1 by lia. apply fin_at. lia. }
      rewrite AG. cbn [obind].
      assert (Hl' : forall x, In x l -> (0 <= s_flat (fst x) < Z.of_nat N)%Z /\ h_fam (snd x) < nfam) by (intros x Hx; apply Hl; right; exact Hx).
      destruct (nth (Z.to_nat (s_flat s)) valid false) eqn:EV.
      + destruct (Z.ltb_spec (Z.of_nat (number valid (Z.to_nat (s_flat s)))) 0); [lia|].
        destruct (h_conj h) eqn:EC; cbn [negb].
        * cbn [obind]. destruct (IH r hb Hb Hl') as (hb' & E & A & B' & C).
          exists hb'. split; [exact E|]. split; [exact A|]. split; [exact B'|]. intros f Hf. rewrite C by auto. cbn [flat_map].
          unfold pairs_to at 2. cbn [fst snd]. rewrite EC, EV. cbn. reflexivity.
        * unfold hb_add. rewrite (aget_ok (hb_blocks hb) (h_fam h) []) by lia. cbn [obind]. rewrite !Nat2Z.id.
          edestruct (IH r (HB (hb_n hb) (upd (hb_blocks hb) (h_fam h) (nth (h_fam h) (hb_blocks hb) [] ++ [(r, number valid (Z.to_nat (s_flat s)))])))) as (hb' & E & A & B' & C); [cbn [hb_blocks]; rewrite upd_length; exact Hb|exact Hl'|].
          exists hb'. unfold add_neighbor_hops in E. rewrite Nat2Z.id in E. split; [exact E|]. split; [exact A|]. split; [exact B'|]. intros f Hf. rewrite C by auto. cbn [hb_blocks flat_map].
          rewrite nth_upd by lia. unfold pairs_to at 2. cbn [fst snd]. rewrite EC, EV. cbn [negb andb].
          destruct (Nat.eqb_spec (h_fam h) f); [subst; rewrite <- app_assoc; reflexivity|reflexivity].
      + cbn [Z.ltb Z.compare]. cbn [obind]. destruct (IH r hb Hb Hl') as (hb' & E & A & B' & C).
        exists hb'. split; [exact E|]. split; [exact A|]. split; [exact B'|]. intros f Hf. rewrite C by auto. cbn [flat_map].
        unfold pairs_to at 2. cbn [fst snd]. rewrite EV. cbn. reflexivity.
  Qed.

  (** Neighbours of the site with array index [v] moved by [T]. *)
  Definition moved_nb (T : idx3) (v : nat) : list (site * hop) :=
    match nth_error uc (snd (bs_of size v)) with
    | Some u => map (fun h => (mk_site size (add3 (add3 (fst (bs_of size v)) T) (h_rel h)) (Z.of_nat (h_to h)), h))
                  (filter (fun h => in_block size (add3 (add3 (fst (bs_of size v)) T) (h_rel h))) (u_hops u))
    | None => [] end.

  Definition hops_from (f : nat) (T : idx3) (v : nat) : list coo :=
    if nth v valid false then flat_map (pairs_to f (number valid v)) (moved_nb T v) else [].

  Definition good_site (s : site) : Prop :=
    exists i a, cell_of size i /\ a < length uc /\ s_idx s = i /\ s_sub s = Z.of_nat a /\ s_flat s = Z.of_nat (place size i a).

  Lemma good_bs : forall s, good_site s -> bs_of size (Z.to_nat (s_flat s)) = (s_idx s, Z.to_nat (s_sub s)) /\
    (s_flat s = Z.of_nat (Z.to_nat (s_flat s))) /\ Z.to_nat (s_flat s) < N.
  Proof.
    intros s (i & a & Hi & Ha & E1 & E2 & E3). rewrite E1, E2, E3, !Nat2Z.id. rewrite (bs_of_place size) by auto.
    split; [reflexivity|]. split; [reflexivity|]. apply (place_bij size (length uc)); auto.
  Qed.

  Lemma moved_range : forall T v x, v < N -> In x (moved_nb T v) -> (0 <= s_flat (fst x) < Z.of_nat N)%Z /\ h_fam (snd x) < nfam.
  Proof.
    intros T v x Hv Hx. unfold moved_nb in Hx. destruct (nth_error uc (snd (bs_of size v))) as [u|] eqn:E; [|contradiction].
    apply in_map_iff in Hx. destruct Hx as (h & <- & Hh). apply filter_In in Hh. destruct Hh as [Hh Hb]. apply in_block_spec in Hb.
    cbn [fst snd mk_site s_flat]. pose proof (uc_to _ Huc _ _ _ E Hh) as HT.
    pose proof (flat_bounds size _ (Z.of_nat (h_to h)) (length uc) Hb ltac:(lia)) as FB. rewrite <- nbs_eq by auto. split; [lia|].
    apply (Hfam u); auto. eapply nth_error_In; eauto.
  Qed.

  Lemma boundary_step_ok : forall T s hb, good_site s -> length (hb_blocks hb) = nfam ->
    exists hb', boundary_step size uc fin T hb s = Ok hb' /\ hb_n hb' = hb_n hb /\ length (hb_blocks hb') = nfam /\
      forall f, f < nfam -> nth f (hb_blocks hb') [] = nth f (hb_blocks hb) [] ++ hops_from f T (Z.to_nat (s_flat s)).
  Proof.
    intros T s hb Gs Hb. destruct (good_bs s Gs) as (B1 & B2 & B3). unfold boundary_step. rewrite B2, fin_at by auto. cbn [obind].
    rewrite Nat2Z.id. unfold hops_from.
    destruct (nth (Z.to_nat (s_flat s)) valid false) eqn:EV.
    - destruct (Z.ltb_spec (Z.of_nat (number valid (Z.to_nat (s_flat s)))) 0); [lia|].
      assert (NB : neighbors size uc (add3 (s_idx s) T) (s_sub s) = Ok (moved_nb T (Z.to_nat (s_flat s)))).
      { unfold neighbors, moved_nb. rewrite B1. cbn [fst snd]. destruct Gs as (i & a & Hi & Ha & E1 & E2 & E3). rewrite E1, E2.
        destruct (Z.ltb_spec (Z.of_nat a) 0); [lia|]. rewrite Nat2Z.id. unfold aget.
        destruct (nth_error uc a) as [u|] eqn:E; [|apply nth_error_None in E; lia]. reflexivity. }
      rewrite NB. cbn [obind]. apply add_hops_gen; auto. intros x Hx. eapply moved_range; eauto.
    - cbn [Z.ltb Z.compare]. exists hb. repeat split; auto. intros. rewrite app_nil_r. reflexivity.
  Qed.

  Lemma boundary_loop_ok : forall T l hb, (forall s, In s l -> good_site s) -> length (hb_blocks hb) = nfam ->
    exists hb', ofold (boundary_step size uc fin T) l hb = Ok hb' /\ hb_n hb' = hb_n hb /\ length (hb_blocks hb') = nfam /\
      forall f, f < nfam -> nth f (hb_blocks hb') [] = nth f (hb_blocks hb) [] ++ flat_map (fun s => hops_from f T (Z.to_nat (s_flat s))) l.
  Proof.
    intros T. induction l as [|s l IH]; intros hb Hl Hb; cbn [ofold].
    - exists hb. repeat split; auto. intros. cbn. rewrite app_nil_r. reflexivity.
    - destruct (boundary_step_ok T s hb (Hl _ (or_introl eq_refl)) Hb) as (h1 & E1 & N1 & L1 & F1). rewrite E1. cbn [obind].
      destruct (IH h1) as (h2 & E2 & N2 & L2 & F2); [intros; apply Hl; right; auto|exact L1|].
      exists h2. split; [exact E2|]. split; [congruence|]. split; [exact L2|]. intros f Hf. rewrite F2, F1 by auto.
      cbn [flat_map]. rewrite app_assoc. reflexivity.
  Qed.

  Lemma hops_from_in : forall f T v p q, v < N -> In (p, q) (hops_from f T v) <->
    exists u h w, nth_error uc (snd (bs_of size v)) = Some u /\ In h (u_hops u) /\ h_conj h = false /\ h_fam h = f /\
      nth v valid false = true /\ w < N /\ nth w valid false = true /\
      bs_of size w = (shifted_cell (shifted_cell (fst (bs_of size v)) T) (h_rel h), h_to h) /\ p = number valid v /\ q = number valid w.
  Proof.
    intros f T v p q Hv. unfold hops_from. split.
    - destruct (nth v valid false) eqn:EV; [|contradiction]. intros H. apply in_flat_map in H. destruct H as ((s, h) & Hs & Hp).
      pose proof (moved_range T v _ Hv Hs) as [RG _]. cbn [fst] in RG.
      unfold moved_nb in Hs. destruct (nth_error uc (snd (bs_of size v))) as [u|] eqn:E; [|contradiction].
      apply in_map_iff in Hs. destruct Hs as (h' & Eh & Hh). apply pair_equal_spec in Eh. destruct Eh as [Es ->].
      apply filter_In in Hh. destruct Hh as [Hh Hb]. apply in_block_spec in Hb.
      unfold pairs_to in Hp. cbn [fst snd] in Hp.
      destruct (nth (Z.to_nat (s_flat s)) valid false) eqn:EW; [|contradiction].
      destruct (h_conj h) eqn:EC; [contradiction|]. destruct (Nat.eqb_spec (h_fam h) f) as [EF|]; [|contradiction].
      cbn in Hp. destruct Hp as [Hp|[]]. injection Hp as <- <-.
      exists u, h, (Z.to_nat (s_flat s)). split; [reflexivity|]. split; [exact Hh|]. split; [exact EC|]. split; [exact EF|].
      split; [reflexivity|]. split; [lia|]. split; [exact EW|]. split; [|auto].
      rewrite <- Es. cbn [mk_site s_flat]. rewrite <- place_flat. rewrite (bs_of_place size) by exact Hb. reflexivity.
    - intros (u & h & w & E & Ih & EC & EF & EV & Hw & EW & EB & -> & ->). rewrite EV.
      apply in_flat_map. unfold moved_nb. rewrite E.
      assert (PW : place size (fst (bs_of size w)) (snd (bs_of size w)) = w) by (apply (bs_of_in size uc Hsize); auto).
      assert (CW : cell_of size (fst (bs_of size w))) by (apply (bs_of_in size uc Hsize); auto).
      rewrite EB in PW, CW. cbn [fst snd] in PW, CW.
      exists (mk_site size (add3 (add3 (fst (bs_of size v)) T) (h_rel h)) (Z.of_nat (h_to h)), h). split.
      + apply in_map_iff. exists h. split; [reflexivity|]. apply filter_In. split; [exact Ih|]. apply in_block_spec. exact CW.
      + unfold pairs_to. cbn [fst snd mk_site s_flat]. rewrite <- place_flat.
        assert (FW : place size (add3 (add3 (fst (bs_of size v)) T) (h_rel h)) (h_to h) = w) by exact PW.
        rewrite FW, EW, EC, EF, Nat.eqb_refl. left. reflexivity.
  Qed.

  Lemma hops_from_same : forall f f' T v v' p q, v < N -> v' < N -> In (p, q) (hops_from f T v) -> In (p, q) (hops_from f' T v') ->
    f = f' /\ v = v'.
  Proof.
    intros f f' T v v' p q Hv Hv' H1 H2. apply hops_from_in in H1; auto. apply hops_from_in in H2; auto.
    destruct H1 as (u & h & w & E & Ih & EC & EF & EV & Hw & EW & EB & Ep & Eq).
    destruct H2 as (u' & h' & w' & E' & Ih' & EC' & EF' & EV' & Hw' & EW' & EB' & Ep' & Eq').
    assert (v = v') by (apply (number_inj valid); auto; congruence). subst v'.
    assert (w = w') by (apply (number_inj valid); auto; congruence). subst w'.
    assert (u' = u) by congruence. subst u'. rewrite EB in EB'. apply pair_equal_spec in EB'. destruct EB' as [ER ET].
    apply (shift_inj size uc valid Hvalid) in ER. assert (h = h') by (eapply (hop_unique uc Huc); eauto). subst h'. split; congruence.
  Qed.

  Lemma hops_from_reverse : forall f f' T v v' p q, v < N -> v' < N ->
    In (p, q) (hops_from f T v) -> In (q, p) (hops_from f' (opposite T) v') -> False.
  Proof.
    intros f f' T v v' p q Hv Hv' H1 H2. apply hops_from_in in H1; auto. apply hops_from_in in H2; auto.
    destruct H1 as (u & h & w & E & Ih & EC & EF & EV & Hw & EW & EB & Ep & Eq).
    destruct H2 as (u' & h' & w' & E' & Ih' & EC' & EF' & EV' & Hw' & EW' & EB' & Ep' & Eq').
    assert (v' = w) by (apply (number_inj valid); auto; congruence). subst v'.
    assert (w' = v) by (apply (number_inj valid); auto; congruence). subst w'.
    destruct (uc_sym _ Huc _ _ _ E Ih) as (u2 & h2 & E2 & Ih2 & R2 & T2 & _ & C2).
    rewrite EB in E', EB'. cbn [fst snd] in *. assert (u2 = u') by congruence. subst u2.
    destruct (bs_of size v) as [i a]. cbn [fst snd] in *. apply pair_equal_spec in EB'. destruct EB' as [ER ET].
    assert (h2 = h').
    { eapply (hop_unique uc Huc); [exact E'|exact Ih2|exact Ih'| |congruence].
      rewrite R2. destruct i as [i1 i2 i3], T as [t1 t2 t3], (h_rel h) as [r1 r2 r3], (h_rel h') as [s1 s2 s3].
      unfold shifted_cell, neg3, opposite in *. cbn [ix iy iz] in *. injection ER as X1 X2 X3. f_equal; lia. }
    subst h2. rewrite EC in C2. cbn in C2. congruence.
  Qed.

  Lemma hops_from_nodup : forall f T v, v < N -> NoDup (hops_from f T v).
  Proof.
    intros f T v Hv. unfold hops_from. destruct (nth v valid false) eqn:EV; [|constructor].
    assert (RG : forall x, In x (moved_nb T v) -> Z.to_nat (s_flat (fst x)) < N) by (intros x Hx; destruct (moved_range T v x Hv Hx); lia).
    assert (ND : NoDup (map (fun x => Z.to_nat (s_flat (fst x))) (moved_nb T v))).
    { unfold moved_nb. destruct (nth_error uc (snd (bs_of size v))) as [u|] eqn:E; [|constructor].
      rewrite map_map. cbn [fst mk_site s_flat].
      pose proof (uc_nodup _ Huc _ _ E) as NU. apply NoDup_map_inj_in; [|apply NoDup_filter; eapply NoDup_map_inv; exact NU].
      - intros h h' Hh Hh' EQ. apply filter_In in Hh, Hh'. destruct Hh as [Hh B], Hh' as [Hh' B']. apply in_block_spec in B, B'.
        rewrite <- !place_flat in EQ. pose proof (uc_to _ Huc _ _ _ E Hh) as Q1. pose proof (uc_to _ Huc _ _ _ E Hh') as Q2.
        apply (place_bij size (length uc)) in EQ; auto. destruct EQ as [ER ET].
        apply (hop_unique uc Huc _ u h h' E); auto. apply (shift_inj size uc valid Hvalid (add3 (fst (bs_of size v)) T)). exact ER. }
    apply NoDup_flat_map.
    - eapply NoDup_map_inv; exact ND.
    - intros x _. unfold pairs_to. destruct (_ && _ && _); repeat constructor. intros [].
    - intros x y b Hx Hy Bx By. unfold pairs_to in Bx, By.
      destruct (nth (Z.to_nat (s_flat (fst x))) valid false) eqn:Vx; [|contradiction].
      destruct (nth (Z.to_nat (s_flat (fst y))) valid false) eqn:Vy; [|contradiction].
      destruct (true && _ && _) in Bx; [|contradiction]. destruct (true && _ && _) in By; [|contradiction].
      destruct Bx as [<-|[]]. destruct By as [By|[]]. injection By as By. apply number_inj in By; auto.
      eapply (NoDup_map_inj (fun x => Z.to_nat (s_flat (fst x)))); eauto.
  Qed.

  (* ------------------------------------------------------------ all translations *)
  Variable s : sym.
  Hypothesis Hp : block_holds_period size s.

  Definition visited (t : translation) : list nat := map (fun x => Z.to_nat (s_flat x)) (slice_sites size (length uc) (tr_slice t)).

  Lemma tr_slice_facts : forall t, In t (translations size uc s) ->
    (forall x, In x (slice_sites size (length uc) (tr_slice t)) -> good_site x) /\
    NoDup (visited t) /\
    (forall i a, cell_of size i -> a < length uc ->
       (In (place size i a) (visited t) <-> selected size (tr_slice t) i)).
  Proof.
    intros t Ht. apply translations_spec in Ht. destruct Ht as (u & h & m & Hu & Hh & Hm & Z & ->).
    destruct (area_ok size s Hsize Hp) as ((L1 & R1 & LR1 & L2 & R2 & LR2 & L3 & R3 & LR3) & _ & _).
    set (a := area_of size s) in *. set (d := mul3 (h_rel h) m) in *.
    assert (IN : slice_inside size (tr_slice (make_translation a d))).
    { pose proof Hsize as (S1 & S2 & S3). unfold slice_inside, make_translation, bslice1. cbn [tr_slice slx sly slz].
      destruct (0 <? ix d)%Z, (ix d <? 0)%Z, (0 <? iy d)%Z, (iy d <? 0)%Z, (0 <? iz d)%Z, (iz d <? 0)%Z;
        unfold slice_one, slice_all; cbn [sl_start sl_end]; lia. }
    assert (SEL : forall i, selected size (tr_slice (make_translation a d)) i -> cell_of size i).
    { intros i. unfold selected. unfold slice_inside in IN. destruct IN as (I1 & I2 & I3 & I4 & I5 & I6).
      destruct (sl_end (slx _) <? 0)%Z, (sl_end (sly _) <? 0)%Z, (sl_end (slz _) <? 0)%Z; unfold cell_of; lia. }
    destruct (slice_facts size (length uc) _ Hsize IN) as [SI INC]. split; [|split].
    - intros x Hx. apply SI in Hx. destruct Hx as (Sx & k & Hk & E1 & E2). exists (s_idx x), k. auto.
    - unfold visited. apply NoDup_map_inv with (f := Z.of_nat). rewrite map_map.
      rewrite (map_ext_in _ s_flat).
      + apply NoDup_nth_error. intros i j Hi E.
        destruct (nth_error (map s_flat (slice_sites size (length uc) (tr_slice (make_translation a d)))) i) as [xi|] eqn:Ei; [|apply nth_error_None in Ei; lia].
        destruct (Nat.lt_trichotomy i j) as [X|[X|X]]; auto; exfalso.
        * specialize (INC _ _ _ _ X Ei (eq_sym E)). lia.
        * specialize (INC _ _ _ _ X (eq_sym E) Ei). lia.
      + intros x Hx. apply SI in Hx. destruct Hx as (_ & k & _ & _ & ->). rewrite Nat2Z.id. reflexivity.
    - intros i k Hi Hk. unfold visited. rewrite in_map_iff. split.
      + intros (x & E & Hx). apply SI in Hx. destruct Hx as (Sx & k' & Hk' & E1 & E2). rewrite E2, Nat2Z.id in E.
        apply (place_bij size (length uc)) in E; auto. destruct E as [E _]. rewrite <- E. exact Sx.
      + intros Si. exists (mk_site size i (Z.of_nat k)). 
        assert (F : flat_of size i (Z.of_nat k) = Z.of_nat (place size i k)).
        { rewrite place_flat. pose proof (flat_bounds size i (Z.of_nat k) (length uc) Hi ltac:(lia)). lia. }
        cbn [mk_site s_flat]. rewrite F, Nat2Z.id. split; [reflexivity|]. apply SI. cbn [mk_site s_idx s_sub s_flat]. split; [exact Si|].
        exists k. rewrite F. auto.
  Qed.

  Definition tr_hops (t : translation) (f : nat) : list coo := flat_map (hops_from f (tr_shift t)) (visited t).

  Lemma nnz_pos : forall hb, length (hb_blocks hb) = nfam -> (0 <? hb_nnz hb) = true <-> exists f, f < nfam /\ nth f (hb_blocks hb) [] <> [].
  Proof.
    intros hb L. rewrite Nat.ltb_lt. unfold hb_nnz. rewrite <- L. clear L.
    assert (G : forall (bl : list (list coo)) n, 0 < fold_left (fun n b => n + length b) bl n <-> 0 < n \/ exists f, f < length bl /\ nth f bl [] <> []).
    { induction bl as [|b bl IH]; intros n; cbn [fold_left].
      - split; [auto|]. intros [H|(f & H & _)]; [auto|cbn in H; lia].
      - rewrite IH. split.
        + intros [H|(f & Hf & E)].
          * destruct b as [|c b]; [left; cbn in H; lia|]. right. exists 0. cbn. split; [lia|discriminate].
          * right. exists (S f). cbn. split; [lia|auto].
        + intros [H|(f & Hf & E)]; [left; lia|]. destruct f as [|f]; cbn in *.
          * left. destruct b; [congruence|cbn; lia].
          * right. exists f. split; [lia|auto]. }
    rewrite G. split; [intros [H|H]; [lia|auto]|auto].
  Qed.

  Lemma boundaries_fold : forall ts bs total, (forall t, In t ts -> In t (translations size uc s)) ->
    exists bs', ofold (fun bs t =>
        omap (fun hb => if 0 <? hb_nnz hb then bs ++ [Bnd (tr_shift t) hb] else bs)
          (ofold (boundary_step size uc fin (tr_shift t)) (slice_sites size (length uc) (tr_slice t)) (hb_new total nfam))) ts bs = Ok (bs ++ bs') /\
      map b_shift bs' = map tr_shift (filter (fun t => existsb (fun f => negb (match tr_hops t f with [] => true | _ => false end)) (seq 0 nfam)) ts) /\
      (forall b, In b bs' -> hb_n (b_hops b) = total /\ length (hb_blocks (b_hops b)) = nfam /\
         exists t, In t ts /\ b_shift b = tr_shift t /\ forall f, f < nfam -> nth f (hb_blocks (b_hops b)) [] = tr_hops t f).
  Proof.
    induction ts as [|t ts IH]; intros bs total Hts; cbn [ofold].
    - exists []. rewrite app_nil_r. split; [reflexivity|]. split; [reflexivity|]. intros b [].
    - destruct (tr_slice_facts t (Hts _ (or_introl eq_refl))) as [G _].
      destruct (boundary_loop_ok (tr_shift t) (slice_sites size (length uc) (tr_slice t)) (hb_new total nfam) G) as (hb & E & NN & L & F);
        [cbn; apply repeat_length|].
      assert (F' : forall f, f < nfam -> nth f (hb_blocks hb) [] = tr_hops t f).
      { intros f Hf. rewrite F by auto. cbn [hb_new hb_blocks]. rewrite nth_repeat. cbn [app]. unfold tr_hops, visited. rewrite !flat_map_concat_map, map_map. reflexivity. }
      rewrite E. cbn [omap obind].
      assert (NZ : (0 <? hb_nnz hb) = existsb (fun f => negb (match tr_hops t f with [] => true | _ => false end)) (seq 0 nfam)).
      { apply Bool.eq_iff_eq_true. rewrite nnz_pos by auto. rewrite existsb_exists. split.
        - intros (f & Hf & X). exists f. rewrite in_seq. split; [lia|]. rewrite F' in X by auto. destruct (tr_hops t f); [congruence|reflexivity].
        - intros (f & Hf & X). apply in_seq in Hf. exists f. split; [lia|]. rewrite F' by lia. destruct (tr_hops t f); [discriminate|congruence]. }
      assert (Hts' : forall t, In t ts -> In t (translations size uc s)) by (intros; apply Hts; right; auto).
      cbn [filter]. rewrite <- NZ. destruct (0 <? hb_nnz hb) eqn:EZ.
      + destruct (IH (bs ++ [Bnd (tr_shift t) hb]) total Hts') as (bs' & E' & M' & B').
        exists (Bnd (tr_shift t) hb :: bs'). rewrite E', <- app_assoc. split; [reflexivity|]. split; [cbn [map b_shift]; rewrite M'; reflexivity|].
        intros b [<-|Hb].
        * cbn [b_hops b_shift]. split; [exact NN|]. split; [exact L|]. exists t. split; [left; auto|]. split; [reflexivity|exact F'].
        * destruct (B' b Hb) as (X1 & X2 & t' & X3 & X4). split; [exact X1|]. split; [exact X2|]. exists t'. split; [right; auto|exact X4].
      + destruct (IH bs total Hts') as (bs' & E' & M' & B'). exists bs'. split; [exact E'|]. split; [exact M'|].
        intros b Hb. destruct (B' b Hb) as (X1 & X2 & t' & X3 & X4). split; [exact X1|]. split; [exact X2|]. exists t'. split; [right; auto|exact X4].
  Qed.
End Bound.

(** A direction has zero components in the directions without translation. *)
Definition dir_ok (s : sym) (d : idx3) : Prop :=
  (sy1 s = None -> ix d = 0%Z) /\ (sy2 s = None -> iy d = 0%Z) /\ (sy3 s = None -> iz d = 0%Z).

Lemma period_pos : forall p, p <> None -> (1 <= period p)%Z.
Proof. intros [n|] H; [cbn; lia|congruence]. Qed.

Lemma shift_periods : forall s d d', dir_ok s d -> dir_ok s d' ->
  mul3 d (I3 (period (sy1 s)) (period (sy2 s)) (period (sy3 s))) = mul3 d' (I3 (period (sy1 s)) (period (sy2 s)) (period (sy3 s))) -> d = d'.
Proof.
  intros s [d1 d2 d3] [e1 e2 e3] (A1 & A2 & A3) (B1 & B2 & B3) E. unfold mul3 in E. cbn [ix iy iz] in *.
  injection E as E1 E2 E3.
  assert (G : forall p a b, (p = None -> a = 0%Z) -> (p = None -> b = 0%Z) -> (a * period p = b * period p)%Z -> a = b).
  { intros p a b Ha Hb Q. destruct p as [n|]; [|rewrite Ha, Hb by auto; reflexivity]. pose proof (period_pos (Some n) ltac:(discriminate)). nia. }
  f_equal; eapply G; eauto.
Qed.

Lemma masked_dir_ok : forall s r m, In m (make_masks s) -> dir_ok s (mul3 r m).
Proof.
  intros s r m Hm. apply masks_in in Hm. destruct Hm as (M1 & M2 & M3).
  unfold dir_ok, mul3, enabled in *. cbn [ix iy iz].
  repeat split; intros E; [destruct M1 as [->|[_ X]]|destruct M2 as [->|[_ X]]|destruct M3 as [->|[_ X]]]; try congruence; lia.
Qed.

Lemma tr_shift_eq : forall P size (uc : list (usite P)) s t, positive_block size -> block_holds_period size s -> In t (translations size uc s) ->
  tr_shift t = mul3 (tr_dir t) (I3 (period (sy1 s)) (period (sy2 s)) (period (sy3 s))) /\ dir_ok s (tr_dir t) /\ tr_dir t <> zero3.
Proof.
  intros P size uc s t Hs Hp Ht. apply translations_spec in Ht. destruct Ht as (u & h & m & Hu & Hh & Hm & Z & ->).
  destruct (area_ok size s Hs Hp) as (_ & M & _). cbn [make_translation tr_shift tr_dir]. rewrite M.
  split; [reflexivity|]. split; [apply masked_dir_ok; auto|exact Z].
Qed.

Lemma NoDup_map_filter : forall {A B} (f : A -> B) g l, NoDup (map f l) -> NoDup (map f (filter g l)).
Proof.
  induction l as [|x l IH]; cbn; intros H; [constructor|]. inversion H; subst. destruct (g x); [|auto]. cbn. constructor; auto.
  intros X. apply H2. apply in_map_iff in X. destruct X as (y & <- & Hy). apply filter_In in Hy. apply in_map. tauto.
Qed.

Lemma shifts_nodup : forall P size (uc : list (usite P)) s, positive_block size -> block_holds_period size s ->
  NoDup (map tr_shift (translations size uc s)).
Proof.
  intros P size uc s Hs Hp. pose proof (proj1 (translations_spec P size uc s)) as ND.
  assert (G : forall l, (forall t, In t l -> In t (translations size uc s)) -> NoDup (map tr_dir l) -> NoDup (map tr_shift l)).
  { induction l as [|t l IH]; cbn; intros Hl N; [constructor|]. inversion N; subst. constructor; [|apply IH; auto].
    intros X. apply in_map_iff in X. destruct X as (t' & E & Ht'). apply H1. apply in_map_iff. exists t'. split; [|exact Ht'].
    destruct (tr_shift_eq P size uc s t Hs Hp (Hl _ (or_introl eq_refl))) as (S1 & D1 & _).
    destruct (tr_shift_eq P size uc s t' Hs Hp (Hl _ (or_intror Ht'))) as (S2 & D2 & _).
    rewrite S1, S2 in E. eapply shift_periods; eauto. }
  apply G; auto.
Qed.

(** One direction: the image number [k] of a short bond between cells of the period. *)
Lemma image_1d : forall size p i j r k, (0 < size)%Z -> (period p <= size)%Z -> short1 p r ->
  in_period1 size p i -> in_period1 size p j -> j = (i + k * period p + r)%Z ->
  let a := area1 size p in
  p = None \/ (p <> None /\ k = 0%Z) \/
  (p <> None /\ k <> 0%Z /\ k = (- r)%Z /\ ((0 < k)%Z -> i = fst (fst a)) /\ ((k < 0)%Z -> i = snd (fst a))).
Proof.
  intros size p i j r k Hs Hp Hr Hi Hj E a. destruct p as [n|]; [|auto]. right.
  destruct (Z.eq_dec k 0) as [->|K]; [left; split; [discriminate|reflexivity]|right]. split; [discriminate|]. split; [exact K|].
  destruct (area1_ok size (Some n) Hs Hp) as (A1 & A2 & A3 & A4 & A5). fold a in A1, A2, A3, A4, A5.
  assert (W : snd (fst a) = (fst (fst a) + period (Some n) - 1)%Z).
  { unfold a, area1. cbv zeta. cbn [fst snd]. pose proof (num_period (Some n)) as Q. cbn match in Q. rewrite Q. reflexivity. }
  apply A5 in Hi, Hj. pose proof (period_pos (Some n) ltac:(discriminate)) as PP. set (q := period (Some n)) in *.
  cbn [short1] in Hr. fold q in Hr.
  destruct (Z.eq_dec q 1) as [Q|Q]; [rewrite Q in *; lia|]. destruct Hr as [Hr|Hr]; [lia|].
  assert (k = 1 \/ k = -1)%Z as [-> | ->] by nia; lia.
Qed.

Definition flag01 (k : Z) : Z := if (k =? 0)%Z then 0%Z else 1%Z.

Lemma image_translation : forall P size (uc : list (usite P)) s (u : usite P) h i T, positive_block size -> block_holds_period size s ->
  In u uc -> In h (u_hops u) -> short_range s (h_rel h) -> whole_periods s T -> 
  in_period size s i -> in_period size s (shifted_cell (shifted_cell i T) (neg3 (h_rel h))) -> short_range s (neg3 (h_rel h)) ->
  exists t, In t (translations size uc s) /\ tr_shift t = T /\ selected size (tr_slice t) i.
Proof.
  intros P size uc s u h [i1 i2 i3] [T1 T2 T3] Hs Hp Hu Hh _ (NZ & k1 & k2 & k3 & ET) (P1 & P2 & P3) (Q1 & Q2 & Q3) (R1 & R2 & R3).
  injection ET as -> -> ->. destruct Hs as (S1 & S2 & S3). destruct Hp as (B1 & B2 & B3).
  destruct (h_rel h) as [r1 r2 r3] eqn:ER. cbn [shifted_cell neg3 ix iy iz] in *.
  pose proof (image_1d _ _ _ _ _ k1 S1 B1 R1 P1 Q1 eq_refl) as F1.
  pose proof (image_1d _ _ _ _ _ k2 S2 B2 R2 P2 Q2 eq_refl) as F2.
  pose proof (image_1d _ _ _ _ _ k3 S3 B3 R3 P3 Q3 eq_refl) as F3.
  set (m1 := match sy1 s with None => 0%Z | _ => flag01 k1 end). set (m2 := match sy2 s with None => 0%Z | _ => flag01 k2 end).
  set (m3 := match sy3 s with None => 0%Z | _ => flag01 k3 end).
  assert (HM : In (I3 m1 m2 m3) (make_masks s)).
  { apply masks_in. cbn [ix iy iz]. unfold enabled, m1, m2, m3, flag01.
    split; [|split]; [destruct (sy1 s), (k1 =? 0)%Z|destruct (sy2 s), (k2 =? 0)%Z|destruct (sy3 s), (k3 =? 0)%Z]; auto; right; split; auto; discriminate. }
  assert (ONE : forall p size i k r m, m = match p with None => 0%Z | _ => flag01 k end ->
     (let a := area1 size p in p = None \/ p <> None /\ k = 0%Z \/ p <> None /\ k <> 0%Z /\ k = (- - r)%Z /\ ((0 < k)%Z -> i = fst (fst a)) /\ ((k < 0)%Z -> i = snd (fst a))) ->
     (0 < size)%Z -> (period p <= size)%Z -> in_period1 size p i ->
     (r * m * period p)%Z = (k * period p)%Z /\
     (let sl := bslice1 (r * m) (fst (fst (area1 size p))) (snd (fst (area1 size p))) in
      (sl_start sl <= i < (if (sl_end sl <? 0)%Z then size else sl_end sl))%Z)).
  { clear. intros p size i k r m -> F Hs Hp Hi. cbv zeta in F.
    destruct (area1_ok size p Hs Hp) as (A1 & A2 & A3 & A4 & A5). apply A5 in Hi.
    assert (ALL : (let sl := bslice1 0 (fst (fst (area1 size p))) (snd (fst (area1 size p))) in
      (sl_start sl <= i < (if (sl_end sl <? 0)%Z then size else sl_end sl))%Z)).
    { unfold bslice1. cbn. lia. }
    destruct F as [->|[(X & ->)|(X & K & EK & L1 & L2)]].
    - cbn match. replace (r * 0)%Z with 0%Z by ring. split; [cbn [period]; ring|exact ALL].
    - replace (match p with None => 0%Z | Some _ => flag01 0 end) with 0%Z by (destruct p; reflexivity).
      replace (r * 0)%Z with 0%Z by ring. split; [ring|exact ALL].
    - assert (EM : match p with None => 0%Z | Some _ => flag01 k end = 1%Z).
      { destruct p; [|congruence]. unfold flag01. destruct (Z.eqb_spec k 0); [lia|reflexivity]. }
      rewrite EM. replace (r * 1)%Z with k by lia. split; [reflexivity|].
      unfold bslice1. destruct (Z.ltb_spec 0 k).
      + specialize (L1 H). unfold slice_one. cbn [sl_start sl_end]. destruct (Z.ltb_spec (fst (fst (area1 size p)) + 1) 0); lia.
      + destruct (Z.ltb_spec k 0); [|lia]. specialize (L2 H0). unfold slice_one. cbn [sl_start sl_end].
        destruct (Z.ltb_spec (snd (fst (area1 size p)) + 1) 0); lia. }
  destruct (ONE (sy1 s) (ix size) i1 k1 r1 m1 eq_refl F1 S1 B1 P1) as [G1 L1].
  destruct (ONE (sy2 s) (iy size) i2 k2 r2 m2 eq_refl F2 S2 B2 P2) as [G2 L2].
  destruct (ONE (sy3 s) (iz size) i3 k3 r3 m3 eq_refl F3 S3 B3 P3) as [G3 L3].
  assert (SH : mul3 (mul3 (I3 r1 r2 r3) (I3 m1 m2 m3)) (I3 (period (sy1 s)) (period (sy2 s)) (period (sy3 s)))
             = I3 (k1 * period (sy1 s)) (k2 * period (sy2 s)) (k3 * period (sy3 s))).
  { unfold mul3. cbn [ix iy iz]. rewrite G1, G2, G3. reflexivity. }
  exists (make_translation (area_of size s) (mul3 (I3 r1 r2 r3) (I3 m1 m2 m3))). split; [|split].
  - apply translations_spec. exists u, h, (I3 m1 m2 m3). rewrite ER. repeat (split; [assumption|]). split; [|reflexivity].
    intros Z. rewrite Z in SH. apply NZ. rewrite <- SH. reflexivity.
  - cbn [make_translation tr_shift]. rewrite <- SH. f_equal. destruct (area_ok size s) as (_ & M & _); repeat split; auto.
  - unfold selected, make_translation. cbn [tr_slice slx sly slz mul3 ix iy iz]. unfold area_of. cbn [a_left a_right ix iy iz]. cbv zeta in L1, L2, L3. repeat split; assumption || apply L1 || apply L2 || apply L3.
Qed.

Section ApiBoundary.
  Variable R : scalar.
  Variable P : Type.
  Variable offset_ok : P -> bool.
  Variable order : list (family R) -> list (family R).
  Variable cs : list (lcall R P).
  Notation l := (calls offset_ok order cs).
  Variable subs : list (sublattice R P).
  Variable fams : list (family R).
  Hypothesis Hs : Permutation subs (l_subs l).
  Hypothesis Hf : Permutation fams (l_fams l).
  Variable uc : list (usite P).
  Hypothesis Huc : unit_cell subs fams = Ok uc.
  Variable size : idx3.
  Hypothesis Hsize : positive_block size.
  Variable s : sym.
  Hypothesis Hper : block_holds_period size s.
  Variable valid : list bool.
  Notation N := (num_block_sites size (length uc)).
  Hypothesis Hvalid : length valid = N.
  Notation nfam := (length (l_fams l)).

  Lemma api_boundaries_raw : exists bs, boundaries_of size uc nfam s valid = Ok bs /\
    NoDup (map b_shift bs) /\
    (forall b, In b bs -> hb_n (b_hops b) = number valid N /\ length (hb_blocks (b_hops b)) = nfam /\
       exists t, In t (translations size uc s) /\ b_shift b = tr_shift t /\
         forall f, f < nfam -> nth f (hb_blocks (b_hops b)) [] = tr_hops size uc valid t f) /\
    (forall t f c, In t (translations size uc s) -> f < nfam -> In c (tr_hops size uc valid t f) ->
       exists b, In b bs /\ b_shift b = tr_shift t).
  Proof.
    pose proof (api_ok R P offset_ok order cs subs fams Hs Hf uc Huc) as OK.
    pose proof (api_fam R P offset_ok order cs subs fams Hs Hf uc Huc) as FM.
    destruct (finalized_ok size uc nfam Hsize FM valid (Hvalid' size uc Hsize valid Hvalid)) as (inds & counts & E & LI & _ & FI & _).
    rewrite nbs_eq in LI by auto.
    assert (Hfin : forall i, i < N -> nth i inds 0%Z = if nth i valid false then Z.of_nat (number valid i) else (-1)%Z).
    { intros i Hi. rewrite FI by (rewrite nbs_eq; auto). rewrite number_rank by lia. reflexivity. }
    destruct (boundaries_fold size uc nfam Hsize OK FM valid Hvalid inds LI Hfin s Hper (translations size uc s) [] (count_true valid) (fun t H => H))
      as (bs & EB & MB & BB).
    exists bs. unfold boundaries_of. rewrite E. cbn [obind fst snd]. unfold populate_boundaries. rewrite EB. split; [reflexivity|].
    split; [rewrite MB; apply NoDup_map_filter, shifts_nodup; auto|]. split.
    - intros b Hb. destruct (BB b Hb) as (B1 & B2 & t & B3). split; [|eauto].
      rewrite B1. symmetry. apply number_total; auto.
    - intros t f c Ht Hlt Hc. 
      assert (IN : In (tr_shift t) (map b_shift bs)).
      { rewrite MB. apply in_map. apply filter_In. split; [exact Ht|]. apply existsb_exists. exists f. split; [apply in_seq; lia|].
        destruct (tr_hops size uc valid t f); [contradiction|reflexivity]. }
      apply in_map_iff in IN. destruct IN as (b & <- & Hb). eauto.
  Qed.

  Lemma tr_hops_nodup : forall t, In t (translations size uc s) ->
    NoDup (concat (map (tr_hops size uc valid t) (seq 0 nfam))) /\
    (forall v, In v (visited size uc t) -> v < N).
  Proof.
    intros t Ht. pose proof (api_ok R P offset_ok order cs subs fams Hs Hf uc Huc) as OK.
    pose proof (api_fam R P offset_ok order cs subs fams Hs Hf uc Huc) as FM.
    destruct (tr_slice_facts size uc Hsize valid Hvalid (repeat 0%Z N) (repeat_length _ _) s Hper t Ht) as (G & ND & _).
    assert (VL : forall v, In v (visited size uc t) -> v < N).
    { intros v Hv. unfold visited in Hv. apply in_map_iff in Hv. destruct Hv as (x & <- & Hx).
      apply (good_bs size uc Hsize x (G x Hx)). }
    split; [|exact VL]. rewrite <- flat_map_concat_map. apply NoDup_flat_map.
    - apply seq_NoDup.
    - intros f _. unfold tr_hops. apply NoDup_flat_map; [exact ND| |].
      + intros v Hv. apply (hops_from_nodup size uc nfam Hsize OK FM valid Hvalid (repeat 0%Z N) (repeat_length _ _)); auto.
      + intros v v' [p q] Hv Hv' A B. eapply (hops_from_same size uc nfam Hsize OK FM valid Hvalid (repeat 0%Z N) (repeat_length _ _) f f); eauto.
    - intros f f' [p q] _ _ A B. unfold tr_hops in A, B. apply in_flat_map in A, B. destruct A as (v & Hv & A), B as (v' & Hv' & B).
      eapply (hops_from_same size uc nfam Hsize OK FM valid Hvalid (repeat 0%Z N) (repeat_length _ _) f f' _ v v'); eauto.
  Qed.

  Lemma api_boundaries : (forall i a, cell_of size i -> a < length uc -> flagged size valid (i, a) = true -> in_period size s i) ->
    exists bs, boundaries_of size uc nfam s valid = Ok bs /\
    NoDup (map b_shift bs) /\
    (forall b, In b bs -> whole_periods s (b_shift b) /\ hb_n (b_hops b) = number valid N /\
       length (hb_blocks (b_hops b)) = nfam /\ NoDup (concat (hb_blocks (b_hops b))) /\
       forall f pq, In pq (nth f (hb_blocks (b_hops b)) []) ->
         exists fam t, In fam (l_fams l) /\ fm_id fam = f /\ In t (fm_terms fam) /\ image_bond size uc valid (b_shift b) t pq) /\
    (forall b b' p q, In b bs -> In b' bs -> b_shift b' = opposite (b_shift b) ->
       In (p, q) (concat (hb_blocks (b_hops b))) -> ~ In (q, p) (concat (hb_blocks (b_hops b')))) /\
    (forall fam t T pq, In fam (l_fams l) -> In t (fm_terms fam) -> short_range s (t_rel t) -> whole_periods s T ->
       image_bond size uc valid T t pq ->
       exists b, In b bs /\ b_shift b = T /\ In pq (nth (fm_id fam) (hb_blocks (b_hops b)) [])).
  Proof.
    intros HW. pose proof (api_ok R P offset_ok order cs subs fams Hs Hf uc Huc) as OK.
    pose proof (api_fam R P offset_ok order cs subs fams Hs Hf uc Huc) as FM.
    destruct api_boundaries_raw as (bs & EB & ND & BB & BC). exists bs. split; [exact EB|]. split; [exact ND|].
    assert (CC : forall b t, In b bs -> (forall f, f < nfam -> nth f (hb_blocks (b_hops b)) [] = tr_hops size uc valid t f) ->
       hb_blocks (b_hops b) = map (tr_hops size uc valid t) (seq 0 nfam)).
    { intros b t Hb F. destruct (BB b Hb) as (_ & L & _).
      apply (nth_ext _ _ [] (tr_hops size uc valid t 0)); [rewrite map_length, seq_length; auto|].
      intros k Hk. rewrite L in Hk. rewrite F, map_nth, seq_nth by auto. reflexivity. }
    split; [|split].
    - intros b Hb. destruct (BB b Hb) as (B1 & B2 & t & Ht & ES & F).
      destruct (tr_shift_eq P size uc s t Hsize Hper Ht) as (SH & DK & DZ).
      split; [|split; [exact B1|split; [exact B2|split]]].
      + rewrite ES, SH. split.
        * intros Z. apply DZ. apply (shift_periods s); auto. repeat split; auto.
        * exists (ix (tr_dir t)), (iy (tr_dir t)), (iz (tr_dir t)). reflexivity.
      + rewrite (CC b t Hb F). apply (tr_hops_nodup t Ht).
      + intros f [p q] Hin. assert (Hlt : f < nfam).
        { destruct (Nat.lt_ge_cases f nfam); auto. rewrite nth_overflow in Hin by lia. contradiction. }
        rewrite F in Hin by auto. unfold tr_hops in Hin. apply in_flat_map in Hin. destruct Hin as (v & Hv & Hin).
        apply (tr_hops_nodup t Ht) in Hv.
        apply (hops_from_in size uc nfam Hsize OK FM valid Hvalid (repeat 0%Z N) (repeat_length _ _)) in Hin; [|exact Hv].
        destruct Hin as (u & h & w & Eu & Ih & EC & EF & EV & Hw & EW & EBw & -> & ->).
        destruct (proj1 (api_forward R P offset_ok order cs subs fams Hs Hf uc Huc _ u h Eu) (conj Ih EC)) as (fm & t' & u2 & Hfm & Ht' & I1 & I2 & I3 & I4 & I5 & _).
        exists fm, t'. split; [eapply Permutation_in; eauto|]. split; [congruence|]. split; [exact Ht'|].
        destruct (bs_of_in size uc Hsize v Hv) as [[Q1 Q2] Q3]. destruct (bs_of_in size uc Hsize w Hw) as [[W1 W2] W3].
        rewrite EBw in W1, W2, W3. cbn [fst snd] in W1, W2, W3.
        exists (fst (bs_of size v)), (snd (bs_of size v)), (h_to h), u, u2. rewrite I2, ES.
        symmetry in I3. unfold flagged. cbn [fst snd]. rewrite Q3, W3. repeat (split; [assumption|]). reflexivity.
    - intros b b' p q Hb Hb' EO H1 H2. destruct (BB b Hb) as (_ & _ & t & Ht & ES & F). destruct (BB b' Hb') as (_ & _ & t' & Ht' & ES' & F').
      rewrite (CC b t Hb F) in H1. rewrite (CC b' t' Hb' F') in H2. rewrite <- flat_map_concat_map in H1, H2.
      apply in_flat_map in H1, H2. destruct H1 as (f & _ & H1), H2 as (f' & _ & H2).
      unfold tr_hops in H1, H2. apply in_flat_map in H1, H2. destruct H1 as (v & Hv & H1), H2 as (v' & Hv' & H2).
      apply (tr_hops_nodup t Ht) in Hv. apply (tr_hops_nodup t' Ht') in Hv'.
      rewrite <- ES', EO, ES in H2.
      exact (hops_from_reverse size uc nfam Hsize OK FM valid Hvalid (repeat 0%Z N) (repeat_length _ _) f f' (tr_shift t) v v' p q Hv Hv' H1 H2).
    - intros fm t T [p q] Hfm Ht SR WP (i & a & b & u & v & Ci & Cj & Ea & Ua & Eb & Ub & Fa & Fb & Epq).
      apply Permutation_sym in Hf. pose proof (Permutation_in _ Hf Hfm) as Hfm'. apply Permutation_sym in Hf.
      injection Epq as -> ->.
      assert (Hlt : fm_id fm < nfam).
      { pose proof (inv_calls R P offset_ok order cs) as I.
        assert (H : In (fm_id fm) (map (@fm_id R) (l_fams l))) by (apply in_map; auto). rewrite (li_fids _ _ _ I) in H. apply in_seq in H. lia. }
      assert (IH : In (Hop (t_rel t) b (fm_id fm) false) (u_hops u)).
      { apply (api_forward R P offset_ok order cs subs fams Hs Hf uc Huc a u); auto. exists fm, t, v. cbn. auto 10. }
      assert (La : a < length uc) by (apply nth_error_Some; congruence).
      assert (Lb : b < length uc) by (apply nth_error_Some; congruence).
      pose proof (HW i a Ci La Fa) as Wi. pose proof (HW _ b Cj Lb Fb) as Wj.
      destruct (uc_sym _ OK _ _ _ Ea IH) as (u2 & h2 & E2 & Ih2 & R2 & T2 & _ & C2). cbn [h_to h_rel h_conj] in *.
      assert (NN : neg3 (h_rel h2) = t_rel t) by (rewrite R2; destruct (t_rel t); unfold neg3; cbn; f_equal; lia).
      destruct (image_translation P size uc s u2 h2 i T Hsize Hper) as (tr & Htr & ESH & SEL); auto.
      { eapply nth_error_In; eauto. }
      { rewrite R2. destruct SR as (A1 & A2 & A3). unfold short_range, short1, neg3 in *. cbn [ix iy iz].
        destruct (sy1 s), (sy2 s), (sy3 s); repeat split; auto; lia. }
      { rewrite NN. exact Wj. }
      { rewrite NN. exact SR. }
      assert (IN : In (number valid (place size i a), number valid (place size (shifted_cell (shifted_cell i T) (t_rel t)) b)) (tr_hops size uc valid tr (fm_id fm))).
      { unfold tr_hops. apply in_flat_map. exists (place size i a).
        split; [apply (tr_slice_facts size uc Hsize valid Hvalid (repeat 0%Z N) (repeat_length _ _) s Hper tr Htr); auto|].
        assert (PA : place size i a < N) by (apply (place_bij size (length uc)); auto).
        assert (PB : place size (shifted_cell (shifted_cell i T) (t_rel t)) b < N) by (apply (place_bij size (length uc)); auto).
        apply (hops_from_in size uc nfam Hsize OK FM valid Hvalid (repeat 0%Z N) (repeat_length _ _)); [exact PA|].
        exists u, (Hop (t_rel t) b (fm_id fm) false), (place size (shifted_cell (shifted_cell i T) (t_rel t)) b).
        rewrite !(bs_of_place size) by auto. cbn [fst snd h_rel h_to h_fam h_conj].
        unfold flagged in Fa, Fb. cbn [fst snd] in Fa, Fb. rewrite ESH. auto 12. }
      destruct (BC tr (fm_id fm) _ Htr Hlt IN) as (bd & Hbd & ESb). exists bd. split; [exact Hbd|]. split; [congruence|].
      destruct (BB bd Hbd) as (_ & _ & tr' & Htr' & ES' & F'). rewrite F' by auto.
      assert (tr_dir tr' = tr_dir tr).
      { destruct (tr_shift_eq P size uc s tr Hsize Hper Htr) as (SH & DK & _). destruct (tr_shift_eq P size uc s tr' Hsize Hper Htr') as (SH' & DK' & _).
        apply (shift_periods s); auto. congruence. }
      replace tr' with tr; [exact IN|]. symmetry.
      eapply (NoDup_map_inj tr_dir); [apply (proj1 (translations_spec P size uc s))|exact Htr'|exact Htr|exact H].
  Qed.
End ApiBoundary.
