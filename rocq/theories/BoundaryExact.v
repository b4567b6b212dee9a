(* Exactly which bonds to periodic images are stored. *)
From Verif Require Import Base Rle RleProofs Blocks BlocksProofs Foundation Scalar Lattice LatticeSpec LatticeProofs IndexProofs PositionProofs DanglingGraph DanglingProofs FinalProofs UnitCellProofs FoundationSpec FoundationFacts PopulateFacts Symmetry SymmetrySpec SymmetryProofs BoundaryProofs.
From Coq Require Import Permutation.

(** The cell is at the side of the period that faces away from the translation: the first cell for a
    translation forwards, the last one for a translation backwards. *)
Definition edge1 (size : Z) (p : option Z) (T x : Z) : Prop :=
  ((0 < T -> x = (size - period p) / 2) /\ (T < 0 -> x = (size - period p) / 2 + period p - 1))%Z.
Definition at_edge (size : idx3) (s : sym) (T i : idx3) : Prop :=
  edge1 (ix size) (sy1 s) (ix T) (ix i) /\ edge1 (iy size) (sy2 s) (iy T) (iy i) /\ edge1 (iz size) (sy3 s) (iz T) (iz i).
(** The translation has as many periods in each direction as some hopping, or its reverse, has cells;
    or none. *)
Definition along (T : idx3) (s : sym) (r : idx3) : Prop :=
  ((ix T = 0 \/ ix T = ix r * period (sy1 s)) /\ (iy T = 0 \/ iy T = iy r * period (sy2 s)) /\ (iz T = 0 \/ iz T = iz r * period (sy3 s)))%Z.
Definition considered {R} (fams : list (family R)) (s : sym) (T : idx3) : Prop :=
  T <> zero3 /\ exists fam t, In fam fams /\ In t (fm_terms fam) /\ (along T s (t_rel t) \/ along T s (neg3 (t_rel t))).

(** [image_bond] with the cell of its first end *)
Definition image_bond_from {P} (size : idx3) (uc : list (usite P)) (flags : list bool) (i T : idx3) (t : term) (pq : nat * nat) : Prop :=
  exists a b u v, cell_of size i /\ cell_of size (shifted_cell (shifted_cell i T) (t_rel t)) /\
    nth_error uc a = Some u /\ u_uid u = t_from t /\ nth_error uc b = Some v /\ u_uid v = t_to t /\
    flagged size flags (i, a) = true /\ flagged size flags (shifted_cell (shifted_cell i T) (t_rel t), b) = true /\
    pq = (number flags (place size i a), number flags (place size (shifted_cell (shifted_cell i T) (t_rel t)) b)).

Section Exact.
  Variable R : scalar.
  Variable P : Type.
  Variable offset_ok : P -> bool.
  Variable order : list (family R) -> list (family R).
  Variable cs : list (lcall R P).
  Notation l := (calls offset_ok order cs).
  Variable subs : list (sublattice R P).
  Variable fams : list (family R).
  Hypothesis Hs : Permutation subs (l_subs l).
  Hypothesis Hf : Permutation fams (l_fams l).
  Variable uc : list (usite P).
  Hypothesis Huc : unit_cell subs fams = Ok uc.
  Variable size : idx3.
  Hypothesis Hsize : positive_block size.
  Variable s : sym.
  Hypothesis Hper : block_holds_period size s.

  Lemma hop_term : forall a u h, nth_error uc a = Some u -> In h (u_hops u) ->
    exists f t, In f (l_fams l) /\ In t (fm_terms f) /\ (h_rel h = t_rel t \/ h_rel h = neg3 (t_rel t)).
  Proof using Hs Hf Huc.
    intros a u h E H. pose proof (api_ok R P offset_ok order cs subs fams Hs Hf uc Huc) as OK. destruct (h_conj h) eqn:C.
    - destruct (uc_sym _ OK a u h E H) as (u' & h' & E' & H' & ER & _ & _ & EC). rewrite C in EC. cbn in EC.
      destruct (proj1 (api_forward R P offset_ok order cs subs fams Hs Hf uc Huc _ u' h' E') (conj H' EC)) as (f & t & v & Hin & Ht & _ & RT & _).
      exists f, t. split; [eapply Permutation_in; eauto|]. split; [exact Ht|]. right. rewrite RT, ER. destruct (h_rel h); unfold neg3; cbn; f_equal; lia.
    - destruct (proj1 (api_forward R P offset_ok order cs subs fams Hs Hf uc Huc _ u h E) (conj H C)) as (f & t & v & Hin & Ht & _ & RT & _).
      exists f, t. split; [eapply Permutation_in; eauto|]. split; [exact Ht|]. left. congruence.
  Qed.
  Lemma term_hop : forall f t, In f (l_fams l) -> In t (fm_terms f) ->
    (exists u h, In u uc /\ In h (u_hops u) /\ h_rel h = t_rel t) /\ (exists u h, In u uc /\ In h (u_hops u) /\ h_rel h = neg3 (t_rel t)).
  Proof using Hs Hf Huc.
    intros f t Hin Ht. pose proof (api_ok R P offset_ok order cs subs fams Hs Hf uc Huc) as OK.
    assert (Hin' : In f fams) by (eapply Permutation_in; [apply Permutation_sym; exact Hf|exact Hin]).
    pose proof (inv_calls R P offset_ok order cs) as I.
    assert (Hft : In (fm_id f, t) (fam_terms fams)) by (unfold fam_terms; apply in_flat_map; exists f; split; auto; apply in_map_iff; eauto).
    destruct (term_ids R P l I fams Hf _ Hft) as [T1 T2]. cbn [snd] in T1, T2.
    destruct (idx_of_cell R P l fams _ T1) as (u & Eu & Uu). destruct (idx_of_cell R P l fams _ T2) as (v & Ev & Uv).
    rewrite <- (api_cell R P offset_ok order cs subs fams Hs Hf uc Huc) in Eu, Ev.
    set (b := idx_of (uids R P l) (t_to t)) in *.
    assert (IH : In (Hop (t_rel t) b (fm_id f) false) (u_hops u)) by (apply (api_forward R P offset_ok order cs subs fams Hs Hf uc Huc (idx_of (uids R P l) (t_from t)) u); auto; exists f, t, v; cbn; auto 10).
    split.
    - exists u, (Hop (t_rel t) b (fm_id f) false). split; [eapply nth_error_In; eauto|]. auto.
    - destruct (uc_sym _ OK _ _ _ Eu IH) as (u2 & h2 & E2 & Ih2 & R2 & _). exists u2, h2. split; [eapply nth_error_In; eauto|]. auto.
  Qed.

  Lemma considered_translation : forall T, considered (l_fams l) s T <-> exists tr, In tr (translations size uc s) /\ tr_shift tr = T.
  Proof using Hs Hf Huc Hsize Hper.
    intros T. destruct (area_ok size s Hsize Hper) as (_ & M & _). split.
    - intros (NZ & f & t & Hin & Ht & HA). destruct (term_hop f t Hin Ht) as [H1 H2].
      assert (exists u h, In u uc /\ In h (u_hops u) /\ along T s (h_rel h)) as (u & h & Hu & Hh & A).
      { destruct HA as [A|A]; [destruct H1 as (u & h & Hu & Hh & E)|destruct H2 as (u & h & Hu & Hh & E)]; exists u, h; rewrite E; auto. }
      set (m := I3 (flag01 (ix T)) (flag01 (iy T)) (flag01 (iz T))).
      assert (ONE : forall p r x, (x = 0 \/ x = r * period p)%Z -> enabled p (flag01 x) /\ (r * flag01 x * period p = x)%Z).
      { intros p r x [->|E]; unfold flag01; [cbn; split; [left; reflexivity|ring]|]. destruct (Z.eqb_spec x 0) as [->|N].
        - split; [left; reflexivity|ring].
        - split; [right; split; [reflexivity|]|lia]. intros ->. apply N. rewrite E. cbn. ring. }
      destruct A as (A1 & A2 & A3). destruct (ONE _ _ _ A1) as [M1 E1]. destruct (ONE _ _ _ A2) as [M2 E2]. destruct (ONE _ _ _ A3) as [M3 E3].
      assert (ES : mul3 (mul3 (h_rel h) m) (I3 (period (sy1 s)) (period (sy2 s)) (period (sy3 s))) = T).
      { unfold mul3, m. cbn [ix iy iz]. rewrite E1, E2, E3. destruct T; reflexivity. }
      exists (make_translation (area_of size s) (mul3 (h_rel h) m)). split.
      + apply translations_spec. exists u, h, m. split; [exact Hu|]. split; [exact Hh|]. split; [apply masks_in; unfold m; cbn [ix iy iz]; auto|]. split; [|reflexivity].
        intros Z. apply NZ. rewrite <- ES, Z. reflexivity.
      + cbn [make_translation tr_shift]. rewrite M. exact ES.
    - intros (tr & Htr & ES). destruct (tr_shift_eq P size uc s tr Hsize Hper Htr) as (SH & DK & DZ).
      apply translations_spec in Htr. destruct Htr as (u & h & m & Hu & Hh & Hm & Z & ->). cbn [make_translation tr_dir] in SH, DK, DZ.
      rewrite ES in SH. split.
      + intros ->. apply DZ. apply (shift_periods s); [exact DK|repeat split; auto|]. rewrite <- SH. reflexivity.
      + apply In_nth_error in Hu. destruct Hu as (a & Ea). destruct (hop_term a u h Ea Hh) as (f & t & Hin & Ht & EH). exists f, t. split; [exact Hin|]. split; [exact Ht|].
        assert (A : along T s (h_rel h)).
        { rewrite SH. apply masks_in in Hm. destruct Hm as (M1 & M2 & M3). unfold along, mul3, enabled in *. cbn [ix iy iz].
          split; [|split]; [destruct M1 as [->|[-> _]]|destruct M2 as [->|[-> _]]|destruct M3 as [->|[-> _]]]; try (left; ring); right; ring. }
        destruct EH as [<-|<-]; auto.
  Qed.

  Lemma selected_edge : forall tr i, In tr (translations size uc s) -> cell_of size i ->
    (selected size (tr_slice tr) i <-> at_edge size s (tr_shift tr) i).
  Proof using Hsize Hper.
    intros tr i Htr Ci. destruct (tr_shift_eq P size uc s tr Hsize Hper Htr) as (SH & DK & DZ).
    apply translations_spec in Htr. destruct Htr as (u & h & m & Hu & Hh & Hm & Z & ->). cbn [make_translation tr_dir] in SH, DK, DZ.
    rewrite SH. set (d := mul3 (h_rel h) m) in *.
    assert (ONE : forall p n x k, (0 < n)%Z -> (period p <= n)%Z -> (p = None -> k = 0%Z) -> (0 <= x < n)%Z ->
      (let sl := bslice1 k (fst (fst (area1 n p))) (snd (fst (area1 n p))) in (sl_start sl <= x < (if (sl_end sl <? 0)%Z then n else sl_end sl))%Z) <-> edge1 n p (k * period p) x).
    { clear. intros p n x k Hn Hp H0 Hx. unfold edge1. destruct p as [q|].
      - destruct (area1_ok n (Some q) Hn Hp) as (A1 & A2 & A3 & A4 & A5). pose proof (period_pos (Some q) ltac:(discriminate)) as PP.
        assert (EL : fst (fst (area1 n (Some q))) = ((n - period (Some q)) / 2)%Z).
        { unfold area1. cbv zeta. cbn [fst]. pose proof (num_period (Some q)) as Q. cbn match in Q. rewrite Q. apply Z.quot_div_nonneg; lia. }
        assert (ER : snd (fst (area1 n (Some q))) = ((n - period (Some q)) / 2 + period (Some q) - 1)%Z).
        { rewrite <- EL. unfold area1. cbv zeta. cbn [fst snd]. pose proof (num_period (Some q)) as Q. cbn match in Q. rewrite Q. reflexivity. }
        rewrite <- ER, <- EL. cbv zeta. unfold bslice1, slice_one, slice_all.
        destruct (Z.ltb_spec 0 k) as [K|K]; [|destruct (Z.ltb_spec k 0) as [K'|K']]; cbn [sl_start sl_end].
        + destruct (Z.ltb_spec (fst (fst (area1 n (Some q))) + 1) 0); [lia|]. nia.
        + destruct (Z.ltb_spec (snd (fst (area1 n (Some q))) + 1) 0); [lia|]. nia.
        + change (-1 <? 0)%Z with true. cbv iota. assert (k = 0%Z) by lia. subst k. lia.
      - rewrite H0 by reflexivity. cbn. lia. }
    destruct Hsize as (S1 & S2 & S3). destruct Hper as (B1 & B2 & B3). destruct DK as (D1 & D2 & D3). destruct Ci as (C1 & C2 & C3).
    pose proof (ONE (sy1 s) (ix size) (ix i) (ix d) S1 B1 D1 C1) as O1. pose proof (ONE (sy2 s) (iy size) (iy i) (iy d) S2 B2 D2 C2) as O2. pose proof (ONE (sy3 s) (iz size) (iz i) (iz d) S3 B3 D3 C3) as O3.
    unfold selected, at_edge, make_translation. cbn [tr_slice slx sly slz]. unfold area_of, mul3. cbn [a_left a_right ix iy iz]. cbv zeta in O1, O2, O3 |- *. rewrite O1, O2, O3. reflexivity.
  Qed.

  Variable valid : list bool.
  Notation N := (num_block_sites size (length uc)).
  Hypothesis Hvalid : length valid = N.
  Notation nfam := (length (l_fams l)).

  (** Exactly the bonds whose translation is considered and whose first cell is at the edge *)
  Lemma exact_boundaries : exists bs, boundaries_of size uc nfam s valid = Ok bs /\
    forall T f pq, (exists b, In b bs /\ b_shift b = T /\ In pq (nth f (hb_blocks (b_hops b)) [])) <->
      considered (l_fams l) s T /\ exists fam t i, In fam (l_fams l) /\ fm_id fam = f /\ In t (fm_terms fam) /\ at_edge size s T i /\ image_bond_from size uc valid i T t pq.
  Proof using Hs Hf Huc Hsize Hper Hvalid.
    pose proof (api_ok R P offset_ok order cs subs fams Hs Hf uc Huc) as OK.
    pose proof (api_fam R P offset_ok order cs subs fams Hs Hf uc Huc) as FM.
    destruct (api_boundaries_raw R P offset_ok order cs subs fams Hs Hf uc Huc size Hsize s Hper valid Hvalid) as (bs & EB & ND & BB & BC). exists bs. split; [exact EB|].
    intros T f [p q]. split.
    - intros (b & Hb & ET & Hin). destruct (BB b Hb) as (B1 & B2 & tr & Htr & ES & F). split; [apply considered_translation; exists tr; split; [exact Htr|congruence]|].
      assert (Hlt : f < nfam). { destruct (Nat.lt_ge_cases f nfam); auto. rewrite nth_overflow in Hin by lia. contradiction. }
      rewrite F in Hin by auto. unfold tr_hops in Hin. apply in_flat_map in Hin. destruct Hin as (v & Hv & Hin). pose proof Hv as Hvis.
      apply (tr_hops_nodup R P offset_ok order cs subs fams Hs Hf uc Huc size Hsize s Hper valid Hvalid tr Htr) in Hv.
      apply (hops_from_in size uc nfam Hsize OK FM valid Hvalid (repeat 0%Z N) (repeat_length _ _)) in Hin; [|exact Hv].
      destruct Hin as (u & h & w & Eu & Ih & EC & EF & EV & Hw & EW & EBw & -> & ->).
      destruct (proj1 (api_forward R P offset_ok order cs subs fams Hs Hf uc Huc _ u h Eu) (conj Ih EC)) as (fm & t' & u2 & Hfm & Ht' & I1 & I2 & I3 & I4 & I5 & _).
      exists fm, t', (fst (bs_of size v)). split; [eapply Permutation_in; eauto|]. split; [congruence|]. split; [exact Ht'|].
      destruct (bs_of_in size uc Hsize v Hv) as [[Q1 Q2] Q3]. destruct (bs_of_in size uc Hsize w Hw) as [[W1 W2] W3].
      rewrite EBw in W1, W2, W3. cbn [fst snd] in W1, W2, W3. split.
      + rewrite <- ET, ES. apply selected_edge; auto. destruct (tr_slice_facts size uc Hsize valid Hvalid (repeat 0%Z N) (repeat_length _ _) s Hper tr Htr) as (_ & _ & V).
        apply (V _ (snd (bs_of size v))); auto. rewrite Q3. exact Hvis.
      + exists (snd (bs_of size v)), (h_to h), u, u2. rewrite I2, <- ET, ES.
        symmetry in I3. unfold flagged. cbn [fst snd]. rewrite Q3, W3. repeat (split; [assumption|]). reflexivity.
    - intros (CO & fm & t & i & Hfm & <- & Ht & ED & (a & b & u & v & Ci & Cj & Ea & Ua & Eb & Ub & Fa & Fb & Epq)).
      apply considered_translation in CO. destruct CO as (tr & Htr & ESH).
      apply Permutation_sym in Hf. pose proof (Permutation_in _ Hf Hfm) as Hfm'. apply Permutation_sym in Hf.
      injection Epq as -> ->.
      assert (Hlt : fm_id fm < nfam).
      { pose proof (inv_calls R P offset_ok order cs) as I.
        assert (H : In (fm_id fm) (map (@fm_id R) (l_fams l))) by (apply in_map; auto). rewrite (li_fids _ _ _ I) in H. apply in_seq in H. lia. }
      assert (IH : In (Hop (t_rel t) b (fm_id fm) false) (u_hops u)).
      { apply (api_forward R P offset_ok order cs subs fams Hs Hf uc Huc a u); auto. exists fm, t, v. cbn. auto 10. }
      assert (La : a < length uc) by (apply nth_error_Some; congruence).
      assert (Lb : b < length uc) by (apply nth_error_Some; congruence).
      assert (SEL : selected size (tr_slice tr) i) by (apply selected_edge; auto; rewrite ESH; exact ED).
      assert (IN : In (number valid (place size i a), number valid (place size (shifted_cell (shifted_cell i T) (t_rel t)) b)) (tr_hops size uc valid tr (fm_id fm))).
      { unfold tr_hops. apply in_flat_map. exists (place size i a).
        split; [apply (tr_slice_facts size uc Hsize valid Hvalid (repeat 0%Z N) (repeat_length _ _) s Hper tr Htr); auto|].
        assert (PA : place size i a < N) by (apply (place_bij size (length uc)); auto).
        assert (PB : place size (shifted_cell (shifted_cell i T) (t_rel t)) b < N) by (apply (place_bij size (length uc)); auto).
        apply (hops_from_in size uc nfam Hsize OK FM valid Hvalid (repeat 0%Z N) (repeat_length _ _)); [exact PA|].
        exists u, (Hop (t_rel t) b (fm_id fm) false), (place size (shifted_cell (shifted_cell i T) (t_rel t)) b).
        rewrite !(bs_of_place size) by auto. cbn [fst snd h_rel h_to h_fam h_conj].
        unfold flagged in Fa, Fb. cbn [fst snd] in Fa, Fb. rewrite ESH. auto 12. }
      destruct (BC tr (fm_id fm) _ Htr Hlt IN) as (bd & Hbd & ESb). exists bd. split; [exact Hbd|]. split; [congruence|].
      destruct (BB bd Hbd) as (_ & _ & tr' & Htr' & ES' & F'). rewrite F' by auto.
      assert (tr_dir tr' = tr_dir tr).
      { destruct (tr_shift_eq P size uc s tr Hsize Hper Htr) as (SH & DK & _). destruct (tr_shift_eq P size uc s tr' Hsize Hper Htr') as (SH' & DK' & _).
        apply (shift_periods s); auto. congruence. }
      replace tr' with tr; [exact IN|]. symmetry.
      eapply (NoDup_map_inj tr_dir); [apply (proj1 (translations_spec P size uc s))|exact Htr'|exact Htr|exact H].
  Qed.
End Exact.
