(* The matrix of a built system is the tight-binding operator of the crystal, restricted to Bloch waves (C102). *)
From Verif Require Import Base Rle RleProofs Blocks BlocksProofs TablesSpec Scalar Foundation FoundationSpec IndexProofs Lattice LatticeSpec
  LatticeProofs UnitCellProofs LatticeFacts FoundationFacts PopulateFacts DanglingProofs Symmetry SymmetrySpec BoundaryProofs
  Hamiltonian HamiltonianSpec HamProofs HamElements HamFacts HamHermitian SystemBuild HamApi HamCor BulkSpec BulkProofs LeadHam BlochProofs ModsProofs CrystalSpec.
From Coq Require Import Permutation.

(** ** Sums *)
Section Sums.
  Variable R : scalar.
  Add Ring Rcrs : (k_ring R).
  Local Open Scope k_scope.
  Lemma ksum_one : forall {A} (c : A -> bool) (g : A -> R) l a, NoDup l -> In a l -> c a = true -> (forall b, In b l -> c b = true -> b = a) ->
    ksum (fun b => if c b then g b else k0) l = g a.
  Proof.
    intros A c g l a ND Ha Ca U. induction l as [|b l IH]; [destruct Ha|]. inversion ND as [|? ? N1 N2]; subst. rewrite ksum_cons. destruct Ha as [->|Ha].
    - rewrite Ca, ksum_0; [ring|]. intros b Hb. destruct (c b) eqn:Cb; [|reflexivity]. apply U in Cb; [|right; exact Hb]. subst b. contradiction.
    - destruct (c b) eqn:Cb.
      + apply U in Cb; [|left; reflexivity]. subst b. contradiction.
      + rewrite IH; [ring|exact N2|exact Ha|]. intros b' Hb'. apply U. right. exact Hb'.
  Qed.
  Lemma ksum_none' : forall {A} (c : A -> bool) (g : A -> R) l, (forall b, In b l -> c b = false) -> ksum (fun b => if c b then g b else k0) l = k0.
  Proof. intros A c g l H. apply ksum_0. intros b Hb. rewrite (H b Hb). reflexivity. Qed.
  Lemma ksum_prod : forall {A B} (f : A * B -> R) la lb, ksum f (list_prod la lb) = ksum (fun a => ksum (fun b => f (a, b)) lb) la.
  Proof.
    intros A B f la lb. induction la as [|a la IH]; [reflexivity|]. cbn [list_prod]. rewrite ksum_app, ksum_cons, ksum_map, IH. reflexivity.
  Qed.
  Lemma nodup_prod : forall {A B} (la : list A) (lb : list B), NoDup la -> NoDup lb -> NoDup (list_prod la lb).
  Proof.
    intros A B la lb Ha Hb. induction Ha as [|a la N1 N2 IH]; [constructor|]. cbn [list_prod]. apply HamProofs.NoDup_app_intro; auto.
    - apply FinFun.Injective_map_NoDup; auto. intros x y E. congruence.
    - intros [a' b'] H1 H2. apply in_map_iff in H1. destruct H1 as (b & E & _). injection E as <- <-. apply in_prod_iff in H2. tauto.
  Qed.
  Lemma map_add_seq : forall o c k, map (fun q => o + q)%nat (seq k c) = seq (o + k) c.
  Proof. intros o. induction c; intros k; [reflexivity|]. cbn [seq map]. f_equal. rewrite IHc. f_equal. lia. Qed.
  (** A sum over all rows is a sum over sites and their orbitals. *)
  Lemma ksum_rows : forall d (f : nat -> R), ksum f (seq 0 (hamiltonian_size d)) = ksum (fun n => ksum (fun q => f (row_of d n q)) (seq 0 (norb_at d n))) (seq 0 (rle_size d)).
  Proof.
    intros d f. rewrite <- ham_indices_partition, <- flat_map_concat_map, ksum_flat_map. apply ksum_ext. intros n _. change (norb_at d n) with (orb_count d n).
    replace (seq (orb_offset d n) (orb_count d n)) with (map (fun q => row_of d n q) (seq 0 (orb_count d n))); [apply ksum_map|].
    transitivity (map (fun q => orb_offset d n + q)%nat (seq 0 (orb_count d n))).
    - apply map_ext. intros q. apply row_of_offset.
    - rewrite map_add_seq. f_equal. lia.
  Qed.
End Sums.
Lemma finite_choice : forall {A} (Q : nat -> A -> Prop) (a0 : A) S, (forall n, n < S -> exists x, Q n x) -> exists f, forall n, n < S -> Q n (f n).
Proof.
  intros A Q a0 S. induction S as [|S IH]; intros H; [exists (fun _ => a0); intros; lia|]. destruct IH as (f & Hf); [intros; apply H; lia|].
  destruct (H S) as (x & Hx); [lia|]. exists (fun n => if n =? S then x else f n). intros n Hn. destruct (Nat.eqb_spec n S) as [->|]; [exact Hx|apply Hf; lia].
Qed.

(** ** Periods *)
Lemma add_zero3 : forall i, shifted_cell i zero3 = i.
Proof. intros [a b c]. unfold shifted_cell, zero3. cbn. f_equal; lia. Qed.
Lemma add_opposite : forall i T, shifted_cell (shifted_cell i T) (opposite T) = i.
Proof. intros [a b c] [d e f]. unfold shifted_cell, opposite. cbn. f_equal; lia. Qed.
Lemma add_swap : forall i S T, shifted_cell (shifted_cell i S) T = shifted_cell (shifted_cell i T) S.
Proof. intros [a b c] [d e f] [g h k]. unfold shifted_cell. cbn. f_equal; lia. Qed.
Lemma add_assoc : forall i S T, shifted_cell (shifted_cell i S) T = shifted_cell i (shifted_cell S T).
Proof. intros [a b c] [d e f] [g h k]. unfold shifted_cell. cbn. f_equal; lia. Qed.
Definition some_periods (s : Symmetry.sym) (T : idx3) : Prop := T = zero3 \/ whole_periods s T.
Lemma some_periods_iff : forall s T, some_periods s T <-> exists k1 k2 k3, T = I3 (k1 * period (sy1 s)) (k2 * period (sy2 s)) (k3 * period (sy3 s)).
Proof.
  intros s T. split.
  - intros [->|(_ & H)]; [|exact H]. exists 0%Z, 0%Z, 0%Z. reflexivity.
  - intros H. destruct (idx3_dec T zero3); [left; assumption|right; split; assumption].
Qed.
Lemma in_period1_unique : forall size p a b k, in_period1 size p a -> in_period1 size p b -> b = (a + k * period p)%Z -> b = a.
Proof.
  intros size [n|] a b k Ha Hb E; unfold in_period1, period in *.
  - assert (k = 0 \/ 1 <= k \/ k <= -1)%Z as [->|[H|H]] by lia; [lia|nia|nia].
  - lia.
Qed.
Lemma in_period_unique : forall size s i T, in_period size s i -> in_period size s (shifted_cell i T) -> some_periods s T -> T = zero3.
Proof.
  intros size s [a b c] T (A1 & A2 & A3) (B1 & B2 & B3) H. apply some_periods_iff in H. destruct H as (k1 & k2 & k3 & ->). unfold shifted_cell in *. cbn [ix iy iz] in *.
  pose proof (in_period1_unique _ _ _ _ k1 A1 B1 eq_refl). pose proof (in_period1_unique _ _ _ _ k2 A2 B2 eq_refl). pose proof (in_period1_unique _ _ _ _ k3 A3 B3 eq_refl).
  unfold zero3. f_equal; lia.
Qed.
Lemma some_periods_opposite : forall s T, some_periods s T -> some_periods s (opposite T).
Proof.
  intros s T H. apply some_periods_iff in H. destruct H as (k1 & k2 & k3 & ->). apply some_periods_iff.
  exists (- k1)%Z, (- k2)%Z, (- k3)%Z. unfold opposite. cbn. f_equal; lia.
Qed.
Lemma some_periods_add : forall s S T, some_periods s S -> some_periods s T -> some_periods s (shifted_cell S T).
Proof.
  intros s S T H1 H2. apply some_periods_iff in H1, H2. destruct H1 as (k1 & k2 & k3 & ->). destruct H2 as (l1 & l2 & l3 & ->). apply some_periods_iff.
  exists (k1 + l1)%Z, (k2 + l2)%Z, (k3 + l3)%Z. unfold shifted_cell. cbn. f_equal; lia.
Qed.

Lemma opposite2 : forall T, opposite (opposite T) = T.
Proof. intros [a b c]. unfold opposite. cbn. f_equal; lia. Qed.
Lemma whole_back : forall s T, whole_periods s T -> whole_periods s (opposite T).
Proof.
  intros s T (N0 & H). destruct (some_periods_opposite s T (or_intror (conj N0 H))) as [E|W]; [|exact W].
  exfalso. apply N0. rewrite <- (opposite2 T), E. reflexivity.
Qed.

(** ** The operator *)
Section Crystal.
  Variable R : scalar.
  Add Ring Rcry : (k_ring R).
  Variable P : Type.
  Variable offset_ok : P -> bool.
  Variable order : list (family R) -> list (family R).
  Variable cs : list (lcall R P).
  Let l := calls offset_ok order cs.
  Variable subs : list (sublattice R P).
  Variable fams : list (family R).
  Hypothesis Hs : Permutation subs (l_subs l).
  Hypothesis Hf : Permutation fams (l_fams l).
  Variable uc : list (usite P).
  Hypothesis Huc : unit_cell subs fams = Ok uc.
  Variable reg hreg : list (option (name * mat R)).
  Hypothesis Hreg : site_registry subs = Ok reg.
  Hypothesis Hhreg : hopping_registry fams = Ok hreg.
  Hypothesis Hprim : forall s o, In s (l_subs l) -> In o (l_subs l) -> sb_uid o = sb_alias s -> primary o.
  Variable size : idx3.
  Hypothesis Hsize : positive_block size.
  Variable s : Symmetry.sym.
  Hypothesis Hper : block_holds_period size s.
  Variable valid : list bool.
  Hypothesis Hvalid : length valid = num_block_sites size (length uc).
  Hypothesis Hin : forall i a, cell_of size i -> a < length uc -> flagged size valid (i, a) = true -> in_period size s i.
  Variable fpos : list P.
  Variable dflt : P.
  Hypothesis Hpos : length fpos = num_block_sites size (length uc).
  Variable shift : idx3 -> P.
  Hypothesis Hshort : forall fam t, In fam (l_fams l) -> In t (fm_terms fam) -> short_range s (t_rel t).
  Variable cap : nat.
  Hypothesis Hcap : fits_buffer R (l_fams l) cap.
  Notation site_at := (site_at size uc valid).
  Local Open Scope k_scope.

  Lemma site_in_period : forall n x, site_at n x -> in_period size s (fst x).
  Proof using Hin.
    intros n x (a & C & U & F & _). apply (Hin (fst x) a C); [|exact F]. unfold uid_at in U. apply nth_error_Some. destruct (nth_error uc a); [discriminate|discriminate U].
  Qed.
  Lemma site_number : forall n k x, site_at n x -> site_at k x -> n = k.
  Proof using Hs Hf Huc.
    intros n k x (a & _ & A2 & _ & A4) (b & _ & B2 & _ & B4). unfold uid_at in A2, B2. destruct (nth_error uc a) as [v|] eqn:Ea; [|discriminate].
    destruct (nth_error uc b) as [w|] eqn:Eb; [|discriminate]. cbn in A2, B2.
    assert (a = b) by (apply (ModsProofs.uid_inj R P offset_ok order cs subs fams Hs Hf uc Huc a b v w Ea Eb); congruence). congruence.
  Qed.
  Lemma uid_single : forall (x : nat) sb (g : sublattice R P -> R), In sb (l_subs l) -> sb_uid sb = x ->
    ksum (fun z => if (sb_uid z =? x)%nat then g z else k0) (l_subs l) = g sb.
  Proof using.
    intros x sb g H E. pose proof (inv_calls R P offset_ok order cs) as I. fold l in I.
    assert (ND : NoDup (map sb_uid (l_subs l))) by (rewrite (li_uids R P l I); apply seq_NoDup).
    apply (ksum_one R (fun z => sb_uid z =? x)%nat g).
    - eapply NoDup_map_inv. exact ND.
    - exact H.
    - apply Nat.eqb_eq. exact E.
    - intros z Hz Ez. apply Nat.eqb_eq in Ez. apply (NoDup_map_inj sb_uid (l_subs l)); auto. congruence.
  Qed.

  (** The sum over all sites of the system and all translations that make a bond of term [t] out of
      [x] and the site is the value of the wave at the other end. *)
  Lemma gather : forall (ph : idx3 -> R) d v psi Ts (f : nat -> idx3 * nat) z (w : nat -> R) c,
    wave_of s ph size uc valid d v psi -> (forall T, ph T * kconj (ph T) = k1) -> NoDup Ts -> (forall T, In T Ts -> whole_periods s T) ->
    (forall n, n < rle_size d <-> exists x, site_at n x) -> (forall n, n < rle_size d -> site_at n (f n)) ->
    (forall n T, n < rle_size d -> whole_periods s T -> f n = moved_site z T -> In T Ts) ->
    (forall n, n < rle_size d -> snd (f n) = snd z -> norb_at d n = c) ->
    ksum (fun n => ksum (fun T => if ((snd (f n) =? snd z)%nat && eqb3 (fst (f n)) (shifted_cell (fst z) T))
       then (if eqb3 T zero3 then k1 else ph T) * ksum (fun q => w q * v (row_of d n q)) (seq 0 (norb_at d n)) else k0) (zero3 :: Ts)) (seq 0 (rle_size d))
    = ksum (fun q => w q * psi z q) (seq 0 c).
  Proof using Hs Hf Huc Hsize Hvalid Hin Hpos.
    intros ph d v psi Ts f z w c W U ND HT HN Hff HC Hc.
    set (cond := fun nt : nat * idx3 => (snd (f (fst nt)) =? snd z)%nat && eqb3 (fst (f (fst nt))) (shifted_cell (fst z) (snd nt))).
    set (g := fun nt : nat * idx3 => (if eqb3 (snd nt) zero3 then k1 else ph (snd nt)) * ksum (fun q => w q * v (row_of d (fst nt) q)) (seq 0 (norb_at d (fst nt)))).
    transitivity (ksum (fun nt => if cond nt then g nt else k0) (list_prod (seq 0 (rle_size d)) (zero3 :: Ts))); [rewrite ksum_prod; reflexivity|].
    assert (CE : forall n T, cond (n, T) = true <-> f n = moved_site z T).
    { intros n T. unfold cond, moved_site. cbn [fst snd]. rewrite andb_true_iff, Nat.eqb_eq, eqb3_eq. destruct (f n) as [i u]. cbn [fst snd].
      split; [intros [-> ->]; reflexivity|intros E; injection E; auto]. }
    assert (NZ : NoDup (zero3 :: Ts)) by (constructor; [intros HI; destruct (HT _ HI) as (X & _); apply X; reflexivity|exact ND]).
    assert (SP : forall T, In T (zero3 :: Ts) -> some_periods s T) by (intros T [<-|HI]; [left; reflexivity|right; auto]).
    destruct (existsb cond (list_prod (seq 0 (rle_size d)) (zero3 :: Ts))) eqn:EX.
    - apply existsb_exists in EX. destruct EX as ([n T] & HI & C). pose proof HI as HI'. apply in_prod_iff in HI'. destruct HI' as (Hn & HTT). apply in_seq in Hn.
      rewrite (ksum_one R cond g _ (n, T)); [|apply nodup_prod; [apply seq_NoDup|exact NZ]|exact HI|exact C|].
      + apply CE in C. unfold g. cbn [fst snd]. rewrite <- ksum_mul_l.
        assert (En : norb_at d n = c) by (apply Hc; [lia|rewrite C; reflexivity]). rewrite En. apply ksum_ext. intros q Hq. apply in_seq in Hq.
        rewrite <- (wv_values _ _ _ _ _ _ _ _ W n (f n) q (Hff n ltac:(lia)) ltac:(lia)), C.
        destruct (eqb3 T zero3) eqn:ET.
        * apply eqb3_eq in ET. subst T. unfold moved_site. rewrite add_zero3, <- surjective_pairing. ring.
        * assert (WT : whole_periods s T) by (destruct (SP T HTT) as [->|WT]; [discriminate ET|exact WT]).
          rewrite (wv_repeats _ _ _ _ _ _ _ _ W z T q WT). transitivity (w q * ((ph T * kconj (ph T)) * psi z q)); [ring|]. rewrite U. ring.
      + intros [n' T'] HI2 C'. apply in_prod_iff in HI2. destruct HI2 as (Hn' & HT'). apply in_seq in Hn'. apply CE in C. apply CE in C'.
        pose proof (Hff n ltac:(lia)) as S1. pose proof (Hff n' ltac:(lia)) as S2. rewrite C in S1. rewrite C' in S2.
        assert (TT : T' = T).
        { pose proof (site_in_period _ _ S1) as P1. pose proof (site_in_period _ _ S2) as P2. unfold moved_site in P1, P2. cbn [fst] in P1, P2.
          assert (Q : shifted_cell T' (opposite T) = zero3).
          { apply (in_period_unique size s (shifted_cell (fst z) T)); [exact P1| |].
            - replace (shifted_cell (shifted_cell (fst z) T) (shifted_cell T' (opposite T))) with (shifted_cell (fst z) T'); [exact P2|].
              destruct (fst z), T, T'. unfold shifted_cell, opposite. cbn. f_equal; lia.
            - apply some_periods_add; [apply SP; exact HT'|apply some_periods_opposite, SP; exact HTT]. }
          destruct T, T'. unfold shifted_cell, opposite, zero3 in Q. cbn in Q. injection Q as Q1 Q2 Q3. f_equal; lia. }
        subst T'. f_equal.
        exact (site_number _ _ _ S2 S1).
    - rewrite ksum_none'; [|intros nt Hnt; destruct (cond nt) eqn:C; [|reflexivity]; exfalso; assert (X : existsb cond (list_prod (seq 0 (rle_size d)) (zero3 :: Ts)) = true) by (apply existsb_exists; exists nt; auto); congruence].
      symmetry. apply ksum_0. intros q _. rewrite (wv_empty _ _ _ _ _ _ _ _ W z q); [ring|]. intros n (T & HT0 & ST).
      assert (Ln : n < rle_size d) by (apply HN; eexists; exact ST). pose proof (site_at_inj P uc size Hsize valid n _ _ (Hff n Ln) ST) as EF.
      assert (X : existsb cond (list_prod (seq 0 (rle_size d)) (zero3 :: Ts)) = true); [|congruence].
      apply existsb_exists. exists (n, T). split; [|apply CE; exact EF]. apply in_prod_iff. split; [apply in_seq; lia|].
      destruct HT0 as [->|WT]; [left; reflexivity|right; apply (HC n T Ln WT EF)].
  Qed.

  Lemma leads_split : forall t x y T, leads_to t (shifted_cell (fst x) T, snd x) y
    = (snd x =? t_from t)%nat && ((snd y =? t_to t)%nat && eqb3 (fst y) (shifted_cell (shifted_cell (fst x) (t_rel t)) T)).
  Proof. intros t x y T. unfold leads_to. cbn [fst snd]. rewrite (add_swap (fst x) T). rewrite andb_assoc. reflexivity. Qed.
  Lemma leads_split_back : forall t x y T, leads_to t y (shifted_cell (fst x) T, snd x)
    = (snd x =? t_to t)%nat && ((snd y =? t_from t)%nat && eqb3 (fst y) (shifted_cell (shifted_cell (fst x) (opposite (t_rel t))) T)).
  Proof.
    intros t x y T. apply eq_true_iff_eq. rewrite leads_to_iff, !andb_true_iff, !Nat.eqb_eq, eqb3_eq. cbn [fst snd].
    destruct (fst x) as [x1 x2 x3], (fst y) as [y1 y2 y3], T as [a b c], (t_rel t) as [r1 r2 r3]. unfold shifted_cell, opposite. cbn [ix iy iz].
    split; [intros (H1 & H2 & H3)|intros (H2 & H1 & H3)]; (split; [assumption|]; split; [assumption|]); injection H3 as E1 E2 E3; f_equal; lia.
  Qed.
  Lemma sum_out : forall (fs : list (family R)) (zs : list idx3) (phz : idx3 -> R) (G : family R -> term -> idx3 -> nat -> nat -> R) (v : nat -> R) (rows : nat -> nat -> nat) (ns : list nat) (cnt : nat -> nat),
    ksum (fun k => ksum (fun q => ksum (fun T => phz T * ksum (fun f => ksum (fun t => G f t T k q) (fm_terms f)) fs) zs * v (rows k q)) (seq 0 (cnt k))) ns
    = ksum (fun f => ksum (fun t => ksum (fun k => ksum (fun T => phz T * ksum (fun q => G f t T k q * v (rows k q)) (seq 0 (cnt k))) zs) ns) (fm_terms f)) fs.
  Proof using.
    intros fs zs phz G v rows ns cnt.
    transitivity (ksum (fun k => ksum (fun f => ksum (fun t => ksum (fun T => phz T * ksum (fun q => G f t T k q * v (rows k q)) (seq 0 (cnt k))) zs) (fm_terms f)) fs) ns).
    - apply ksum_ext. intros k _.
      transitivity (ksum (fun q => ksum (fun f => ksum (fun t => ksum (fun T => phz T * (G f t T k q * v (rows k q))) zs) (fm_terms f)) fs) (seq 0 (cnt k))).
      + apply ksum_ext. intros q _. rewrite <- ksum_mul_r.
        transitivity (ksum (fun T => ksum (fun f => ksum (fun t => phz T * (G f t T k q * v (rows k q))) (fm_terms f)) fs) zs).
        * apply ksum_ext. intros T _. rewrite <- ksum_mul_l, <- ksum_mul_r. apply ksum_ext. intros f _. rewrite <- ksum_mul_l, <- ksum_mul_r. apply ksum_ext. intros t _. ring.
        * rewrite ksum_swap. apply ksum_ext. intros f _. apply ksum_swap.
      + rewrite ksum_swap. apply ksum_ext. intros f _. rewrite ksum_swap. apply ksum_ext. intros t _. rewrite ksum_swap. apply ksum_ext. intros T _. apply ksum_mul_l.
    - rewrite ksum_swap. apply ksum_ext. intros f _. apply ksum_swap.
  Qed.

  (** Row [p] of site [n] of the matrix, applied to the values of a wave on the system. *)
  Lemma row_action : forall (ph : idx3 -> R) d (M : nat -> nat -> R) v psi Ts f n p sx,
    wave_of s ph size uc valid d v psi -> (forall T, ph T * kconj (ph T) = k1) ->
    (forall n, n < rle_size d <-> exists x, site_at n x) -> (forall n, n < rle_size d -> site_at n (f n)) ->
    (forall n x, site_at n x -> exists sb, In sb (l_subs l) /\ sb_uid sb = snd x /\ norb_at d n = m_rows (sb_energy sb)) ->
    (forall k, k < rle_size d -> translations_of s (l_fams l) (f n) (f k) Ts) -> (forall T, In T Ts -> In (opposite T) Ts) ->
    n < rle_size d -> In sx (l_subs l) -> sb_uid sx = snd (f n) -> p < m_rows (sb_energy sx) ->
    (forall k q, k < rle_size d -> q < norb_at d k -> M (row_of d n p) (row_of d k q)
       = (if (n =? k)%nat then m_at (sb_energy sx) p q else k0) + bulk complex_type (l_fams l) (f n) p (f k) q
         + ksum (fun T => ph T * bulk complex_type (l_fams l) (shifted_cell (fst (f n)) T, snd (f n)) p (f k) q) Ts) ->
    ksum (fun j => M (row_of d n p) j * v j) (seq 0 (hamiltonian_size d)) = crystal (l_subs l) (l_fams l) psi (f n) p.
  Proof using Hs Hf Huc Hsize Hvalid Hin Hpos.
    intros ph d M v psi Ts f n p sx W U HN Hff HSB HTR HO Ln Isx Usx Hp HM.
    pose proof (inv_calls R P offset_ok order cs) as I. fold l in I.
    assert (TT : NoDup Ts /\ (forall T, In T Ts -> whole_periods s T)) by (destruct (HTR n Ln) as (A & B & _); auto). destruct TT as (ND & HT).
    assert (SUB : forall k sb, k < rle_size d -> In sb (l_subs l) -> sb_uid sb = snd (f k) -> norb_at d k = m_rows (sb_energy sb)).
    { intros k sb Lk Isb Usb. destruct (HSB k (f k) (Hff k Lk)) as (sb' & X1 & X2 & X3). assert (sb' = sb) by (apply (sub_uid_inj R P l I); auto; congruence). congruence. }
    assert (SQ : forall sb, In sb (l_subs l) -> m_cols (sb_energy sb) = m_rows (sb_energy sb)) by (intros sb Hsb; destruct (li_sub _ _ _ I sb Hsb) as (_ & _ & HMm & _); exact HMm).
    rewrite ksum_rows. set (phz := fun T => if eqb3 T zero3 then k1 else ph T).
    set (G := fun (fm : family R) (t : term) (T : idx3) (k q : nat) =>
       (if leads_to t (shifted_cell (fst (f n)) T, snd (f n)) (f k) then m_at (fm_energy fm) p q else k0)
       + (if leads_to t (f k) (shifted_cell (fst (f n)) T, snd (f n)) then kconj (m_at (fm_energy fm) q p) else k0)).
    assert (BG : forall T k q, bulk complex_type (l_fams l) (shifted_cell (fst (f n)) T, snd (f n)) p (f k) q = ksum (fun fm => ksum (fun t => G fm t T k q) (fm_terms fm)) (l_fams l)).
    { intros T k q. unfold bulk, hops_to. cbn [nt_cast nt_conj complex_type]. rewrite ksum_conj, <- ksum_add. apply ksum_ext. intros fm _. rewrite ksum_conj, <- ksum_add.
      apply ksum_ext. intros t _. unfold G. f_equal. destruct (leads_to t (f k) _); [reflexivity|apply kconj_0]. }
    transitivity (ksum (fun k => ksum (fun q => (if (n =? k)%nat then m_at (sb_energy sx) p q else k0) * v (row_of d k q)) (seq 0 (norb_at d k))) (seq 0 (rle_size d))
      + ksum (fun k => ksum (fun q => ksum (fun T => phz T * ksum (fun fm => ksum (fun t => G fm t T k q) (fm_terms fm)) (l_fams l)) (zero3 :: Ts) * v (row_of d k q)) (seq 0 (norb_at d k))) (seq 0 (rle_size d))).
    { rewrite <- ksum_add. apply ksum_ext. intros k Hk. apply in_seq in Hk. rewrite <- ksum_add. apply ksum_ext. intros q Hq. apply in_seq in Hq.
      rewrite HM by lia. rewrite ksum_cons. rewrite <- BG. rewrite add_zero3, <- surjective_pairing. unfold phz at 1. replace (eqb3 zero3 zero3) with true by reflexivity.
      rewrite (ksum_ext _ (fun T => ph T * _) (fun T => phz T * ksum (fun fm => ksum (fun t => G fm t T k q) (fm_terms fm)) (l_fams l))).
      - ring.
      - intros T HI. rewrite BG. unfold phz. destruct (eqb3 T zero3) eqn:EZ; [|reflexivity]. apply eqb3_eq in EZ. destruct (HT T HI) as (X & _). contradiction. }
    unfold crystal. f_equal.
    - unfold onsite_action. rewrite (uid_single (snd (f n)) sx (fun s0 => ksum (fun q => m_at (sb_energy s0) p q * psi (f n) q) (seq 0 (m_rows (sb_energy s0)))) Isx Usx).
      rewrite (ksum_single R _ _ n Ln).
      + rewrite Nat.eqb_refl, (SUB n sx Ln Isx Usx). apply ksum_ext. intros q Hq. apply in_seq in Hq. f_equal. symmetry.
        apply (wv_values _ _ _ _ _ _ _ _ W); [apply Hff; exact Ln|rewrite (SUB n sx Ln Isx Usx); lia].
      + intros k _ Ne. apply ksum_0. intros q _. replace (n =? k)%nat with false by (symmetry; apply Nat.eqb_neq; auto). ring.
    - rewrite (sum_out (l_fams l) (zero3 :: Ts) phz G v (row_of d) (seq 0 (rle_size d)) (norb_at d)). apply ksum_ext. intros fm Hfm. apply ksum_ext. intros t Ht.
      destruct (li_terms _ _ _ I fm t Hfm Ht) as (sa & sb & A1 & A2 & A3 & A4 & A5 & A6 & _).
      set (Gf := fun T k => if (snd (f k) =? t_to t)%nat && eqb3 (fst (f k)) (shifted_cell (shifted_cell (fst (f n)) (t_rel t)) T) then phz T * ksum (fun q => m_at (fm_energy fm) p q * v (row_of d k q)) (seq 0 (norb_at d k)) else k0).
      set (Gb := fun T k => if (snd (f k) =? t_from t)%nat && eqb3 (fst (f k)) (shifted_cell (shifted_cell (fst (f n)) (opposite (t_rel t))) T) then phz T * ksum (fun q => kconj (m_at (fm_energy fm) q p) * v (row_of d k q)) (seq 0 (norb_at d k)) else k0).
      transitivity ((if (snd (f n) =? t_from t)%nat then ksum (fun k => ksum (fun T => Gf T k) (zero3 :: Ts)) (seq 0 (rle_size d)) else k0)
        + (if (snd (f n) =? t_to t)%nat then ksum (fun k => ksum (fun T => Gb T k) (zero3 :: Ts)) (seq 0 (rle_size d)) else k0)).
      { transitivity (ksum (fun k => ksum (fun T => (if (snd (f n) =? t_from t)%nat then Gf T k else k0) + (if (snd (f n) =? t_to t)%nat then Gb T k else k0)) (zero3 :: Ts)) (seq 0 (rle_size d))).
        - apply ksum_ext. intros k _. apply ksum_ext. intros T _. unfold G, Gf, Gb.
          rewrite leads_split, leads_split_back.
          set (a1 := (snd (f n) =? t_from t)%nat). set (a2 := (snd (f n) =? t_to t)%nat).
          match goal with |- context [a1 && ?z] => set (b1 := z) end. match goal with |- context [a2 && ?z] => set (b2 := z) end.
          rewrite (ksum_ext _ _ (fun q => (if a1 && b1 then m_at (fm_energy fm) p q * v (row_of d k q) else k0) + (if a2 && b2 then kconj (m_at (fm_energy fm) q p) * v (row_of d k q) else k0)))
            by (intros q _; destruct (a1 && b1), (a2 && b2); ring).
          rewrite ksum_add. destruct a1, a2, b1, b2; cbn [andb]; rewrite ?(ksum_0 R (fun _ => k0)) by reflexivity; ring.
        - destruct (snd (f n) =? t_from t)%nat, (snd (f n) =? t_to t)%nat.
          + rewrite <- ksum_add. apply ksum_ext. intros k _. apply ksum_add.
          + transitivity (ksum (fun k => ksum (fun T => Gf T k) (zero3 :: Ts)) (seq 0 (rle_size d))); [|ring]. apply ksum_ext. intros k _. apply ksum_ext. intros T _. ring.
          + transitivity (ksum (fun k => ksum (fun T => Gb T k) (zero3 :: Ts)) (seq 0 (rle_size d))); [|ring]. apply ksum_ext. intros k _. apply ksum_ext. intros T _. ring.
          + transitivity (k0 (s := R)); [|ring]. apply ksum_0. intros k _. apply ksum_0. intros T _. ring. }
      unfold forward_action, backward_action. f_equal.
      + destruct (snd (f n) =? t_from t)%nat eqn:EF; [|reflexivity]. apply Nat.eqb_eq in EF.
        apply (gather ph d v psi Ts f (shifted_cell (fst (f n)) (t_rel t), t_to t) (fun q => m_at (fm_energy fm) p q) (m_cols (fm_energy fm)) W U ND HT HN Hff).
        * intros k T Lk WT E. destruct (HTR k Lk) as (_ & _ & HC). apply (HC T fm t WT Hfm Ht). left. rewrite leads_split, E. unfold moved_site. cbn [fst snd].
          rewrite EF, !Nat.eqb_refl. apply eqb3_eq. reflexivity.
        * intros k Lk E. cbn [snd] in E. rewrite (SUB k sb Lk A2) by congruence. rewrite <- (SQ sb A2). exact A6.
      + destruct (snd (f n) =? t_to t)%nat eqn:EF; [|reflexivity]. apply Nat.eqb_eq in EF.
        apply (gather ph d v psi Ts f (shifted_cell (fst (f n)) (opposite (t_rel t)), t_from t) (fun q => kconj (m_at (fm_energy fm) q p)) (m_rows (fm_energy fm)) W U ND HT HN Hff).
        * intros k T Lk WT E. rewrite <- (opposite2 T). apply HO. destruct (HTR k Lk) as (_ & _ & HC).
          apply (HC (opposite T) fm t); auto; [apply whole_back; exact WT|]. right. apply leads_to_iff. rewrite E. unfold moved_site. cbn [fst snd].
          split; [reflexivity|]. split; [exact EF|]. destruct (fst (f n)) as [x1 x2 x3], T as [a b c], (t_rel t) as [r1 r2 r3]. unfold shifted_cell, opposite. cbn. f_equal; lia.
        * intros k Lk E. cbn [snd] in E. rewrite (SUB k sa Lk A1) by congruence. exact A5.
  Qed.
End Crystal.
