(* Lemmas behind the property theorems C07 and C08: the populated system. *)
From Verif Require Import Base Rle RleProofs Blocks Foundation Scalar Lattice LatticeSpec LatticeProofs IndexProofs PositionProofs DanglingGraph DanglingProofs FinalProofs UnitCellProofs FoundationSpec FoundationFacts.
From Coq Require Import Permutation.

Lemma number_rank : forall flags v, v <= length flags -> number flags v = rank flags v.
Proof.
  intros flags v. induction v as [|v IH]; intros H; [reflexivity|].
  unfold rank. rewrite rank_S by lia. fold (rank flags v). unfold number. rewrite seq_S, filter_app, app_length. cbn [filter Nat.add].
  fold (number flags v). rewrite IH by lia. destruct (nth v flags false); reflexivity.
Qed.

Lemma number_S : forall flags v, number flags (S v) = number flags v + b2n (nth v flags false).
Proof. intros. unfold number. rewrite seq_S, filter_app, app_length. cbn. destruct (nth v flags false); reflexivity. Qed.

Lemma number_mono : forall flags a b, a <= b -> number flags a <= number flags b.
Proof. intros flags a b H. induction H; auto. rewrite number_S. lia. Qed.

Lemma number_inj : forall flags a b, nth a flags false = true -> nth b flags false = true ->
  number flags a = number flags b -> a = b.
Proof.
  intros flags a b Ha Hb E. destruct (Nat.lt_trichotomy a b) as [H|[H|H]]; auto; exfalso.
  - pose proof (number_mono flags (S a) b H). rewrite number_S, Ha in H0. cbn in H0. lia.
  - pose proof (number_mono flags (S b) a H). rewrite number_S, Hb in H0. cbn in H0. lia.
Qed.

Lemma mask_filter : forall {A} flags (l : list A) d, length flags = length l ->
  mask flags l = map (fun k => nth k l d) (filter (fun k => nth k flags false) (seq 0 (length l))).
Proof.
  intros A flags l d. revert flags. induction l as [|x l IH]; intros [|b flags] H; try discriminate; [reflexivity|].
  cbn [mask length seq filter nth]. rewrite <- seq_shift.
  assert (FM : forall p (L : list nat), filter p (map S L) = map S (filter (fun k => p (S k)) L)).
  { intros p. induction L as [|y L IHL]; [reflexivity|]. cbn. destruct (p (S y)); cbn; rewrite IHL; reflexivity. }
  rewrite FM. cbn [nth]. rewrite (IH flags) by (cbn in H; lia).
  destruct b; cbn [map nth]; rewrite map_map; reflexivity.
Qed.

Lemma NoDup_flat_map : forall {A B} (f : A -> list B) l, NoDup l -> (forall x, In x l -> NoDup (f x)) ->
  (forall x y b, In x l -> In y l -> In b (f x) -> In b (f y) -> x = y) -> NoDup (flat_map f l).
Proof.
  intros A B f l ND. induction ND as [|x l Hx ND IH]; intros H1 H2; [constructor|]. cbn [flat_map].
  apply NoDup_app_intro.
  - apply H1. left; auto.
  - apply IH; [intros; apply H1; right; auto|intros; eapply H2; eauto; right; auto].
  - intros b Hb Hin. apply in_flat_map in Hin. destruct Hin as (y & Hy & Hb'). apply Hx.
    rewrite (H2 x y b); auto; [left; auto|right; auto].
Qed.

Section Pop.
  Context {P : Type}.
  Variable size : idx3.
  Variable uc : list (usite P).
  Variable nfam : nat.
  Hypothesis Hsize : positive_block size.
  Hypothesis Huc : uc_ok uc.
  Hypothesis Hfam : forall u h, In u uc -> In h (u_hops u) -> h_fam h < nfam.
  Variable norb_of : nat -> nat.
  Hypothesis Hnorb : forall u, In u uc -> u_norb u = norb_of (u_alias u).
  Hypothesis Hcontig : forall a b c ua ub uc', a <= b -> b <= c ->
    nth_error uc a = Some ua -> nth_error uc b = Some ub -> nth_error uc c = Some uc' ->
    u_alias ua = u_alias uc' -> u_alias ub = u_alias ua.
  Hypothesis Hsorted : forall a b ua ub, a <= b -> nth_error uc a = Some ua -> nth_error uc b = Some ub ->
    u_norb ua <= u_norb ub.
  Variable valid : list bool.
  Notation N := (num_block_sites size (length uc)).
  Hypothesis Hvalid : length valid = N.
  Lemma Hvalid' : length valid = Z.to_nat (f_size size (length uc)).
  Proof. rewrite nbs_eq; auto. Qed.

  (** Array indices of the valid sites, in order. *)
  Definition kept : list nat := filter (fun k => nth k valid false) (seq 0 N).

  Lemma kept_nth : forall v, v < N -> nth v valid false = true -> nth_error kept (number valid v) = Some v.
  Proof.
    intros v Hv Ev. unfold kept. replace N with (v + S (N - S v)) by lia. rewrite seq_app, filter_app.
    rewrite nth_error_app2 by (unfold number; lia). unfold number. rewrite Nat.sub_diag. cbn [Nat.add seq filter]. rewrite Ev. reflexivity.
  Qed.

  Lemma kept_length : length kept = count_true valid.
  Proof.
    unfold kept. rewrite <- Hvalid. pose proof (mask_filter valid valid false eq_refl) as H.
    apply (f_equal (@length bool)) in H. rewrite map_length, mask_length in H by reflexivity. auto.
  Qed.

  (** Hoppings of one family started at the site with array index [v]. *)
  Lemma hops_at_in : forall f v p q, v < N -> In (p, q) (hops_at size uc valid f v) <->
    exists u h w, nth_error uc (snd (bs_of size v)) = Some u /\ In h (u_hops u) /\ h_conj h = false /\ h_fam h = f /\
      nth v valid false = true /\ w < N /\ nth w valid false = true /\
      bs_of size w = (shifted_cell (fst (bs_of size v)) (h_rel h), h_to h) /\ p = number valid v /\ q = number valid w.
  Proof.
    intros f v p q Hv. pose proof Hv as Hv'. rewrite <- nbs_eq in Hv' by auto.
    destruct (neighbors_ok size uc Hsize v Hv') as (u & E & _ & L).
    unfold hops_at. split.
    - destruct (nth v valid false) eqn:EV; [|contradiction]. intros H. apply in_flat_map in H. destruct H as ((s, h) & Hs & Hp).
      unfold pair_of in Hp. cbn [fst snd] in Hp.
      destruct (nth (Z.to_nat (s_flat s)) valid false) eqn:EW; [|contradiction].
      destruct (h_conj h) eqn:EC; [contradiction|]. destruct (Nat.eqb_spec (h_fam h) f) as [EF|]; [|contradiction].
      cbn in Hp. destruct Hp as [Hp|[]]. injection Hp as <- <-.
      destruct (nb_elem size uc Hsize Huc v s h Hv' Hs) as (u' & E' & Ih & A & B & C & D & F & G).
      exists u', h, (Z.to_nat (s_flat s)). split; [exact E'|]. split; [exact Ih|]. split; [exact EC|]. split; [exact EF|].
      split; [reflexivity|]. rewrite nbs_eq in G by auto. split; [lia|]. split; [exact EW|]. split.
      + unfold bs_of. cbn [fst snd]. rewrite Z2Nat.id by lia. rewrite <- F, A, C, Nat2Z.id. reflexivity.
      + rewrite !number_rank by lia. auto.
    - intros (u' & h & w & E' & Ih & EC & EF & EV & Hw & EW & EB & -> & ->). rewrite EV.
      assert (u' = u) by (cbn [bs_of snd] in E'; congruence). subst u'.
      apply in_flat_map. exists (mk_site size (add3 (s_idx (unflat size (Z.of_nat v))) (h_rel h)) (Z.of_nat (h_to h)), h).
      assert (PW : place size (fst (bs_of size w)) (snd (bs_of size w)) = w) by (apply (bs_of_in size uc Hsize); auto).
      assert (CW : cell_of size (fst (bs_of size w))) by (apply (bs_of_in size uc Hsize); auto).
      rewrite EB in PW, CW. cbn [fst snd] in PW, CW. split.
      + rewrite L. apply in_map_iff. exists h. split; [reflexivity|]. apply filter_In. split; [exact Ih|]. apply in_block_spec. exact CW.
      + unfold pair_of. cbn [fst snd mk_site s_flat].
        assert (FW : Z.to_nat (flat_of size (add3 (s_idx (unflat size (Z.of_nat v))) (h_rel h)) (Z.of_nat (h_to h))) = w).
        { rewrite <- place_flat. exact PW. }
        rewrite FW, EW, EC, EF, Nat.eqb_refl. cbn. left. rewrite !number_rank by lia. reflexivity.
  Qed.

  Lemma hop_unique : forall a u h h', nth_error uc a = Some u -> In h (u_hops u) -> In h' (u_hops u) ->
    h_rel h = h_rel h' -> h_to h = h_to h' -> h = h'.
  Proof.
    intros a u h h' E H1 H2 ER ET. pose proof (uc_nodup _ Huc _ _ E) as ND.
    eapply (NoDup_map_inj (fun h => (h_rel h, h_to h))); eauto. cbn. congruence.
  Qed.

  Lemma shift_inj : forall i r r', shifted_cell i r = shifted_cell i r' -> r = r'.
  Proof. intros [a b c] [x y z] [x' y' z'] E. unfold shifted_cell in E. cbn in E. injection E as E1 E2 E3. f_equal; lia. Qed.

  Lemma hops_at_nodup : forall f v, v < N -> NoDup (hops_at size uc valid f v).
  Proof.
    intros f v Hv. unfold hops_at. destruct (nth v valid false) eqn:EV; [|constructor].
    pose proof Hv as Hv'. rewrite <- nbs_eq in Hv' by auto.
    assert (ND : NoDup (nbf size uc v)) by (apply nbf_nodup; auto).
    unfold nbf in ND. apply NoDup_flat_map.
    - eapply NoDup_map_inv2; eauto.
    - intros x _. unfold pair_of. destruct (_ && _ && _); repeat constructor. intros [].
    - intros x y b Hx Hy Bx By. unfold pair_of in Bx, By.
      destruct (nth (Z.to_nat (s_flat (fst x))) valid false) eqn:Vx; [|contradiction].
      destruct (nth (Z.to_nat (s_flat (fst y))) valid false) eqn:Vy; [|contradiction].
      destruct (true && _ && _) in Bx; [|contradiction]. destruct (true && _ && _) in By; [|contradiction].
      destruct Bx as [<-|[]]. destruct By as [By|[]]. injection By as By.
      assert (Lx : Z.to_nat (s_flat (fst x)) < N).
      { rewrite <- nbs_eq by auto. apply (nbf_range size uc Hsize Huc v); auto. unfold nbf. apply (in_map (fun x => Z.to_nat (s_flat (fst x)))); auto. }
      assert (Ly : Z.to_nat (s_flat (fst y)) < N).
      { rewrite <- nbs_eq by auto. apply (nbf_range size uc Hsize Huc v); auto. unfold nbf. apply (in_map (fun x => Z.to_nat (s_flat (fst x)))); auto. }
      rewrite <- !number_rank in By by lia. apply number_inj in By; auto.
      eapply (NoDup_map_inj (fun x => Z.to_nat (s_flat (fst x)))); eauto.
  Qed.

  Lemma all_hops_in : forall f p q, In (p, q) (flat_map (hops_at size uc valid f) (seq 0 N)) <->
    exists v, v < N /\ In (p, q) (hops_at size uc valid f v).
  Proof.
    intros. rewrite in_flat_map. split; intros (v & A & B); exists v; rewrite in_seq in *; split; auto; lia.
  Qed.

  (** The same pair of sites comes from one start site and one hopping entry. *)
  Lemma hops_same : forall f f' v v' p q, v < N -> v' < N -> In (p, q) (hops_at size uc valid f v) -> In (p, q) (hops_at size uc valid f' v') ->
    f = f' /\ v = v'.
  Proof.
    intros f f' v v' p q Hv Hv' H1 H2. apply hops_at_in in H1; auto. apply hops_at_in in H2; auto.
    destruct H1 as (u & h & w & E & Ih & EC & EF & EV & Hw & EW & EB & Ep & Eq).
    destruct H2 as (u' & h' & w' & E' & Ih' & EC' & EF' & EV' & Hw' & EW' & EB' & Ep' & Eq').
    assert (v = v') by (apply (number_inj valid); auto; congruence). subst v'.
    assert (w = w') by (apply (number_inj valid); auto; congruence). subst w'.
    assert (u' = u) by congruence. subst u'. rewrite EB in EB'. apply pair_equal_spec in EB'. destruct EB' as [ER ET].
    apply shift_inj in ER. assert (h = h') by (eapply hop_unique; eauto). subst h'. split; congruence.
  Qed.

  Lemma hops_no_reverse : forall f f' v v' p q, v < N -> v' < N -> In (p, q) (hops_at size uc valid f v) -> In (q, p) (hops_at size uc valid f' v') -> False.
  Proof.
    intros f f' v v' p q Hv Hv' H1 H2. apply hops_at_in in H1; auto. apply hops_at_in in H2; auto.
    destruct H1 as (u & h & w & E & Ih & EC & EF & EV & Hw & EW & EB & Ep & Eq).
    destruct H2 as (u' & h' & w' & E' & Ih' & EC' & EF' & EV' & Hw' & EW' & EB' & Ep' & Eq').
    assert (v' = w) by (apply (number_inj valid); auto; congruence). subst v'.
    assert (w' = v) by (apply (number_inj valid); auto; congruence). subst w'.
    destruct (uc_sym _ Huc _ _ _ E Ih) as (u2 & h2 & E2 & Ih2 & R2 & T2 & _ & C2).
    rewrite EB in E', EB'. cbn [fst snd] in *. assert (u2 = u') by congruence. subst u2.
    assert (h2 = h').
    { eapply hop_unique; [exact E'|exact Ih2|exact Ih'| |].
      - rewrite R2. rewrite <- (surjective_pairing (bs_of size v)) in EB' || idtac.
        destruct (bs_of size v) as [i a]. cbn [fst snd] in *. apply pair_equal_spec in EB'. destruct EB' as [ER ET].
        destruct i as [i1 i2 i3], (h_rel h) as [r1 r2 r3], (h_rel h') as [s1 s2 s3].
        unfold shifted_cell, neg3 in *. cbn [ix iy iz] in *. injection ER as X1 X2 X3. f_equal; lia.
      - destruct (bs_of size v) as [i a]. cbn [fst snd] in *. apply pair_equal_spec in EB'. destruct EB' as [_ ET]. congruence. }
    subst h2. rewrite EC in C2. cbn in C2. congruence.
  Qed.

  Lemma all_hops_nodup : NoDup (concat (map (fun f => flat_map (hops_at size uc valid f) (seq 0 N)) (seq 0 nfam))).
  Proof.
    rewrite <- flat_map_concat_map. apply NoDup_flat_map.
    - apply seq_NoDup.
    - intros f _. apply NoDup_flat_map; [apply seq_NoDup| |].
      + intros v Hv. apply in_seq in Hv. apply hops_at_nodup. lia.
      + intros v v' [p q] Hv Hv' H1 H2. apply in_seq in Hv, Hv'. apply (hops_same f f v v' p q); auto; lia.
    - intros f f' [p q] _ _ H1 H2. apply all_hops_in in H1, H2. destruct H1 as (v & Hv & H1). destruct H2 as (v' & Hv' & H2).
      apply (hops_same f f' v v' p q); auto.
  Qed.
  Variable fpos : list P.
  Variable dflt : P.
  Hypothesis Hpos : length fpos = N.

  Lemma Hpos' : length fpos = Z.to_nat (f_size size (length uc)).
  Proof. rewrite nbs_eq; auto. Qed.

  Lemma populate_ok : exists d hb,
    populate_system dflt size uc nfam fpos valid = Ok (mask valid fpos, d, hb) /\
    rle_verify d (count_true valid) = true /\
    labels d = mask valid (map (label_of size uc) (seq 0 N)) /\
    hb_n hb = count_true valid /\ length (hb_blocks hb) = nfam /\
    (forall f, f < nfam -> nth f (hb_blocks hb) [] = flat_map (hops_at size uc valid f) (seq 0 N)).
  Proof.
    destruct (finalized_ok size uc nfam Hsize Hfam valid Hvalid') as (inds & counts & E & L & _ & F & _).
    destruct (populate_loop_ok size uc nfam Hsize Huc Hfam valid Hvalid' norb_of Hnorb Hcontig Hsorted fpos dflt Hpos' inds L F)
      as (d & hb & E2 & V & LB & HN & HL & HB).
    exists d, hb. unfold populate_system. rewrite E. cbn [obind fst snd]. rewrite E2. cbn [obind fst snd]. rewrite V.
    rewrite nbs_eq in * by auto. auto 10.
  Qed.
End Pop.

(* ------------------------------------------------------ lattices built through the API *)
Section Api.
  Variable R : scalar.
  Variable P : Type.
  Variable offset_ok : P -> bool.
  Variable order : list (family R) -> list (family R).
  Variable cs : list (lcall R P).
  Notation l := (calls offset_ok order cs).
  Variable subs : list (sublattice R P).
  Variable fams : list (family R).
  Hypothesis Hs : Permutation subs (l_subs l).
  Hypothesis Hf : Permutation fams (l_fams l).
  Variable uc : list (usite P).
  Hypothesis Huc : unit_cell subs fams = Ok uc.

  Lemma api_cell : uc = cell R P l fams.
  Proof.
    pose proof (unit_cell_ok R P l (inv_calls R P offset_ok order cs) subs fams Hs Hf) as E. congruence.
  Qed.

  Lemma api_ok : uc_ok uc.
  Proof. rewrite api_cell. apply (cell_uc_ok R P l (inv_calls R P offset_ok order cs) fams Hf). Qed.

  Lemma api_fam : forall u h, In u uc -> In h (u_hops u) -> h_fam h < length (l_fams l).
  Proof. rewrite api_cell. apply (cell_fam R P l (inv_calls R P offset_ok order cs) fams Hf). Qed.

  Lemma api_contig : forall a b c ua ub uc', a <= b -> b <= c ->
    nth_error uc a = Some ua -> nth_error uc b = Some ub -> nth_error uc c = Some uc' ->
    u_alias ua = u_alias uc' -> u_alias ub = u_alias ua.
  Proof. rewrite api_cell. apply (cell_contig R P l (inv_calls R P offset_ok order cs) fams). Qed.

  Lemma api_sorted : forall a b ua ub, a <= b -> nth_error uc a = Some ua -> nth_error uc b = Some ub -> u_norb ua <= u_norb ub.
  Proof. rewrite api_cell. apply (cell_sorted R P l (inv_calls R P offset_ok order cs) fams). Qed.

  Lemma api_norb : forall u, In u uc -> u_norb u = norb_of_alias R P l (u_alias u).
  Proof. rewrite api_cell. apply (cell_norb R P l (inv_calls R P offset_ok order cs) fams). Qed.

  (** A forward entry of a unit-cell site is a lattice term. *)
  Lemma api_forward : forall a u h, nth_error uc a = Some u ->
    (In h (u_hops u) /\ h_conj h = false) <->
    exists f t v, In f fams /\ In t (fm_terms f) /\ fm_id f = h_fam h /\ t_rel t = h_rel h /\ t_from t = u_uid u /\
      nth_error uc (h_to h) = Some v /\ u_uid v = t_to t /\ h_conj h = false.
  Proof.
    pose proof (inv_calls R P offset_ok order cs) as I. rewrite api_cell. intros a u h E. split.
    - intros [H C]. apply (in_cell_hops R P l fams a u h E) in H. destruct H as ((fid, t) & Hft & He).
      destruct (term_ids R P l I fams Hf _ Hft) as [T1 T2].
      apply in_entry in He. destruct He as [[E1 ->]|[_ ->]]; [|discriminate C]. cbn [snd fst h_to h_rel h_fam] in *.
      unfold fam_terms in Hft. apply in_flat_map in Hft. destruct Hft as (f & Hf1 & Ht). apply in_map_iff in Ht.
      destruct Ht as (t' & Et & Ht). injection Et as <- ->.
      destruct (idx_of_cell R P l fams _ T2) as (v & Ev & Uv). exists f, t, v. auto 10.
    - intros (f & t & v & Hf1 & Ht & EF & ER & EU & Ev & Uv & C). split; [|exact C].
      apply (in_cell_hops R P l fams a u h E). exists (fm_id f, t). split.
      + unfold fam_terms. apply in_flat_map. exists f. split; auto. apply in_map_iff. eauto.
      + apply in_entry. left. cbn [fst snd]. split; [congruence|].
        rewrite <- Uv. rewrite (idx_of_uid R P l I fams _ _ Ev). destruct h as [r to fm c]. cbn in *. congruence.
  Qed.

  Variable size : idx3.
  Hypothesis Hsize : positive_block size.
  Variable valid : list bool.
  Notation N := (num_block_sites size (length uc)).
  Hypothesis Hvalid : length valid = N.

  Lemma mask_number : forall {A} (x : list A) v, length x = N -> v < N -> nth v valid false = true ->
    nth_error (mask valid x) (number valid v) = nth_error x v.
  Proof.
    intros A x v Lx Hv Ev. destruct x as [|x0 x']; [cbn in Lx; lia|]. set (x := x0 :: x') in *.
    rewrite (mask_filter valid x x0) by congruence. rewrite Lx. rewrite nth_error_map.
    change (filter (fun k => nth k valid false) (seq 0 N)) with (kept size uc valid).
    rewrite kept_nth by auto. cbn [option_map]. symmetry. apply nth_error_nth'. lia.
  Qed.

  Lemma numbers_cover : forall k, k < count_true valid -> exists v, v < N /\ nth v valid false = true /\ number valid v = k.
  Proof.
    intros k Hk. rewrite <- (kept_length size uc valid Hvalid) in Hk.
    destruct (nth_error (kept size uc valid) k) as [v|] eqn:E; [|apply nth_error_None in E; lia].
    assert (Hin : In v (kept size uc valid)) by (eapply nth_error_In; eauto).
    unfold kept in Hin. apply filter_In in Hin. destruct Hin as [A B]. apply in_seq in A.
    exists v. split; [lia|]. split; [exact B|].
    assert (K := kept_nth size uc valid Hvalid v ltac:(lia) B).
    assert (ND : NoDup (kept size uc valid)) by (apply NoDup_filter, seq_NoDup).
    rewrite NoDup_nth_error in ND. apply ND; [|congruence]. apply nth_error_Some. congruence.
  Qed.

  Lemma number_total : number valid N = count_true valid.
  Proof. rewrite <- (kept_length size uc valid Hvalid). reflexivity. Qed.

  Variable fpos : list P.
  Variable dflt : P.
  Hypothesis Hpos : length fpos = N.

  Lemma api_populate : exists d hb,
    populate_system dflt size uc (length (l_fams l)) fpos valid = Ok (mask valid fpos, d, hb) /\
    rle_verify d (count_true valid) = true /\
    labels d = mask valid (map (label_of size uc) (seq 0 N)) /\
    hb_n hb = count_true valid /\ length (hb_blocks hb) = length (l_fams l) /\
    (forall f, f < length (l_fams l) -> nth f (hb_blocks hb) [] = flat_map (hops_at size uc valid f) (seq 0 N)).
  Proof.
    eapply populate_ok; eauto using api_ok, api_fam, api_sorted, api_norb, api_contig.
  Qed.

  Lemma api_numbering : forall pos d hb,
    populate_system dflt size uc (length (l_fams l)) fpos valid = Ok (pos, d, hb) ->
    length pos = number valid N /\ length (labels d) = number valid N /\ hb_n hb = number valid N /\
    (forall i a u, cell_of size i -> nth_error uc a = Some u -> flagged size valid (i, a) = true ->
       nth_error pos (number valid (place size i a)) = nth_error fpos (place size i a) /\
       nth_error (labels d) (number valid (place size i a)) = Some (u_alias u, u_norb u)) /\
    (forall k, k < number valid N -> exists i a, cell_of size i /\ a < length uc /\ flagged size valid (i, a) = true /\
       number valid (place size i a) = k) /\
    (forall j k x y, j <= k -> nth_error (labels d) j = Some x -> nth_error (labels d) k = Some y -> snd x <= snd y).
  Proof.
    intros pos d hb E. destruct api_populate as (d' & hb' & E' & V & L & HN & HL & _).
    rewrite E in E'. injection E' as -> -> ->. rewrite number_total.
    assert (LL : forall i a u, cell_of size i -> nth_error uc a = Some u -> flagged size valid (i, a) = true ->
       nth_error (labels d') (number valid (place size i a)) = Some (u_alias u, u_norb u)).
    { intros i a u Hi Ha Fl. unfold flagged in Fl. cbn [fst snd] in Fl.
      assert (Hp : place size i a < N).
      { apply (place_bij size (length uc)); auto. apply nth_error_Some. congruence. }
      rewrite L, mask_number by (rewrite ?map_length, ?seq_length; auto).
      rewrite nth_error_map. rewrite (nth_error_nth' _ 0) by (rewrite seq_length; auto). rewrite seq_nth by auto. cbn [option_map Nat.add].
      unfold label_of, sub_of. change (Z.to_nat (s_sub (unflat size (Z.of_nat (place size i a))))) with (snd (bs_of size (place size i a))).
      rewrite (bs_of_place size) by auto. cbn [snd]. rewrite Ha. reflexivity. }
    split; [apply mask_length; congruence|]. split; [rewrite L; apply mask_length; rewrite map_length, seq_length; auto|].
    split; [exact HN|]. split.
    - intros i a u Hi Ha Fl. split; [|apply LL; auto]. unfold flagged in Fl. cbn [fst snd] in Fl.
      apply mask_number; auto. apply (place_bij size (length uc)); auto. apply nth_error_Some. congruence.
    - assert (CV : forall k, k < count_true valid -> exists i a, cell_of size i /\ a < length uc /\ flagged size valid (i, a) = true /\
         number valid (place size i a) = k).
      { intros k Hk. destruct (numbers_cover k Hk) as (v & Hv & Ev & En). destruct (bs_of_in size uc Hsize v Hv) as [[B1 B2] B3].
        exists (fst (bs_of size v)), (snd (bs_of size v)). split; [exact B1|]. split; [exact B2|]. unfold flagged. cbn [fst snd]. rewrite B3. auto. }
      split; [exact CV|].
      intros j k x y Hjk Hx Hy.
      assert (Lk : k < count_true valid).
      { rewrite <- (mask_length valid (map (label_of size uc) (seq 0 N))) by (rewrite map_length, seq_length; auto). rewrite <- L. apply nth_error_Some. congruence. }
      destruct (CV j ltac:(lia)) as (i1 & a1 & I1 & A1 & F1 & N1). destruct (CV k Lk) as (i2 & a2 & I2 & A2 & F2 & N2).
      destruct (nth_error uc a1) as [u1|] eqn:U1; [|apply nth_error_None in U1; lia].
      destruct (nth_error uc a2) as [u2|] eqn:U2; [|apply nth_error_None in U2; lia].
      pose proof (LL i1 a1 u1 I1 U1 F1) as X1. pose proof (LL i2 a2 u2 I2 U2 F2) as X2. rewrite N1 in X1. rewrite N2 in X2.
      assert (x = (u_alias u1, u_norb u1)) by congruence. assert (y = (u_alias u2, u_norb u2)) by congruence. subst x y. cbn [snd].
      apply (api_sorted a1 a2); auto.
      destruct (Nat.le_gt_cases a1 a2) as [H|H]; auto. exfalso.
      (* larger sublattice number means larger array index *)
      assert (place size i2 a2 < place size i1 a1).
      { rewrite !place_flat. 
        pose proof (flat_bounds size i2 (Z.of_nat a2) (S a2) I2 ltac:(lia)) as G2.
        pose proof (flat_bounds size i1 0%Z 1 I1 ltac:(lia)) as G1.
        assert (flat_of size i1 (Z.of_nat a1) = flat_of size i1 0 + prod3 size * Z.of_nat a1)%Z by (unfold flat_of, prod3; ring).
        unfold f_size in *. pose proof (prod3_pos size Hsize). nia. }
      assert (number valid (S (place size i2 a2)) <= number valid (place size i1 a1)) by (apply number_mono; lia).
      rewrite number_S in H1. unfold flagged in F2. cbn [fst snd] in F2. rewrite F2 in H1. cbn in H1. lia.
  Qed.

  Lemma api_bonds : forall pos d hb,
    populate_system dflt size uc (length (l_fams l)) fpos valid = Ok (pos, d, hb) ->
    length (hb_blocks hb) = length (l_fams l) /\
    (forall f pq, In pq (nth f (hb_blocks hb) []) <->
       exists fam t, In fam (l_fams l) /\ fm_id fam = f /\ In t (fm_terms fam) /\ bond_of size uc valid t pq) /\
    NoDup (concat (hb_blocks hb)) /\
    (forall p q, In (p, q) (concat (hb_blocks hb)) -> ~ In (q, p) (concat (hb_blocks hb))).
  Proof.
    intros pos d hb E. destruct api_populate as (d' & hb' & E' & V & L & HN & HL & HB).
    rewrite E in E'. injection E' as -> -> ->. pose proof api_ok as OK.
    assert (CC : hb_blocks hb' = map (fun f => flat_map (hops_at size uc valid f) (seq 0 N)) (seq 0 (length (l_fams l)))).
    { apply (nth_ext _ _ [] (flat_map (hops_at size uc valid 0) (seq 0 N))); [rewrite map_length, seq_length; auto|].
      intros k Hk. rewrite HL in Hk. rewrite HB by auto.
      change (flat_map (hops_at size uc valid 0) (seq 0 N)) with ((fun f => flat_map (hops_at size uc valid f) (seq 0 N)) 0).
      rewrite map_nth, seq_nth by auto. reflexivity. }
    split; [exact HL|]. split; [|split].
    - intros f [p q]. split.
      + intros Hin. assert (Hlt : f < length (l_fams l)).
        { destruct (Nat.lt_ge_cases f (length (l_fams l))); auto. rewrite nth_overflow in Hin by lia. contradiction. }
        rewrite HB in Hin by auto. apply (all_hops_in size uc valid Hvalid) in Hin. destruct Hin as (v & Hv & Hin).
        apply (hops_at_in size uc Hsize OK valid Hvalid) in Hin; [|exact Hv]. destruct Hin as (u & h & w & Eu & Ih & EC & EF & EV & Hw & EW & EB & -> & ->).
        destruct (proj1 (api_forward _ u h Eu) (conj Ih EC)) as (fm & t & u2 & Hfm & Ht & I1 & I2 & I3 & I4 & I5 & _).
        exists fm, t. split; [eapply Permutation_in; eauto|]. split; [congruence|]. split; [exact Ht|].
        destruct (bs_of_in size uc Hsize v Hv) as [[B1 B2] B3]. destruct (bs_of_in size uc Hsize w Hw) as [[W1 W2] W3].
        rewrite EB in W1, W2, W3. cbn [fst snd] in W1, W2, W3.
        exists (fst (bs_of size v)), (snd (bs_of size v)), (h_to h), u, u2. rewrite I2.
        symmetry in I3. unfold flagged. cbn [fst snd]. rewrite B3, W3. repeat (split; [assumption|]). reflexivity.
      + intros (fm & t & Hfm & <- & Ht & i & a & b & u & v & Ci & Cj & Ea & Ua & Eb & Ub & Fa & Fb & Epq).
        apply Permutation_sym in Hf. pose proof (Permutation_in _ Hf Hfm) as Hfm'. apply Permutation_sym in Hf.
        injection Epq as -> ->.
        assert (Hlt : fm_id fm < length (l_fams l)).
        { pose proof (inv_calls R P offset_ok order cs) as I.
          assert (H : In (fm_id fm) (map (@fm_id R) (l_fams l))) by (apply in_map; auto). rewrite (li_fids _ _ _ I) in H. apply in_seq in H. lia. }
        rewrite HB by auto. apply (all_hops_in size uc valid Hvalid). exists (place size i a).
        assert (PA : place size i a < N) by (apply (place_bij size (length uc)); auto; apply nth_error_Some; congruence).
        assert (PB : place size (shifted_cell i (t_rel t)) b < N) by (apply (place_bij size (length uc)); auto; apply nth_error_Some; congruence).
        split; [exact PA|]. apply (hops_at_in size uc Hsize OK valid Hvalid); [exact PA|].
        exists u, (Hop (t_rel t) b (fm_id fm) false), (place size (shifted_cell i (t_rel t)) b).
        rewrite !(bs_of_place size) by auto. cbn [fst snd h_rel h_to h_fam h_conj].
        assert (IH : In (Hop (t_rel t) b (fm_id fm) false) (u_hops u)).
        { apply (api_forward a u); auto. exists fm, t, v. cbn. auto 10. }
        unfold flagged in Fa, Fb. cbn [fst snd] in Fa, Fb. auto 12.
    - rewrite CC. apply all_hops_nodup; auto.
    - intros p q H1 H2. rewrite CC, <- flat_map_concat_map in H1, H2.
      apply in_flat_map in H1, H2. destruct H1 as (f & _ & H1). destruct H2 as (f' & _ & H2).
      apply (all_hops_in size uc valid Hvalid) in H1, H2. destruct H1 as (v & Hv & H1). destruct H2 as (v' & Hv' & H2).
      exact (hops_no_reverse size uc Hsize OK valid Hvalid f f' v v' p q Hv Hv' H1 H2).
  Qed.
End Api.

(** Neighbour lists for two iteration orders of the hopping map are permutations of each other. *)
Lemma api_neighbours_perm : forall R P offset_ok order cs subs1 fams1 subs2 fams2 uc1 uc2 size,
  Permutation subs1 (l_subs (@calls R P offset_ok order cs)) -> Permutation fams1 (l_fams (calls offset_ok order cs)) ->
  Permutation subs2 (l_subs (@calls R P offset_ok order cs)) -> Permutation fams2 (l_fams (calls offset_ok order cs)) ->
  unit_cell subs1 fams1 = Ok uc1 -> unit_cell subs2 fams2 = Ok uc2 ->
  length uc1 = length uc2 /\ forall s, Permutation (block_neighbours size uc1 s) (block_neighbours size uc2 s).
Proof.
  intros R P offset_ok order cs subs1 fams1 subs2 fams2 uc1 uc2 size S1 F1 S2 F2 E1 E2.
  rewrite (api_cell R P offset_ok order cs subs1 fams1 S1 F1 uc1 E1), (api_cell R P offset_ok order cs subs2 fams2 S2 F2 uc2 E2).
  split; [rewrite !cell_length; auto|]. intros s.
  set (l := calls offset_ok order cs) in *. unfold block_neighbours, cell, with_hops. rewrite !nth_error_map.
  destruct (nth_error (frame R P l) (snd s)) as [v|]; cbn [option_map]; [|constructor]. cbn [u_hops].
  assert (PF : forall {A} (p : A -> bool) a b, Permutation a b -> Permutation (filter p a) (filter p b)).
  { intros A p a b H. induction H; cbn; auto; [destruct (p x); auto|destruct (p x), (p y); auto; apply perm_swap|eapply perm_trans; eauto]. }
  apply PF. apply Permutation_map. try apply Permutation_app_head. apply Permutation_flat_map. unfold fam_terms. apply Permutation_flat_map.
  eapply perm_trans; [exact F1|]. apply Permutation_sym; exact F2.
Qed.
