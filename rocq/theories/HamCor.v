(* Consequences of the element theorem: batching (C19), both paths agree (C18), Hamiltonians of
   API-built models (C17, C18), direction of generated hoppings (C14). *)
From Verif Require Import Base Rle RleProofs Blocks BlocksProofs TablesSpec TablesProofs Scalar Foundation FoundationSpec Lattice LatticeSpec
  LatticeProofs LatticeFacts Symmetry SymmetrySpec
  Hamiltonian HamiltonianSpec HamProofs HamElements HamFacts HamHermitian SystemBuild HamApi.
From Coq Require Import Permutation.

Section C.
  Variable R : scalar.
  Variable V : Type.

  Definition cap_fits (sys : hsys R V) (cap : nat) : Prop :=
    forall h, h = hs_hops sys \/ In h (map fst (hs_bounds sys)) ->
    forall f c, In (f, c) (stored h) -> mat_size (snd (reg_entry (hs_hop sys) f)) <= cap.

  Definition same_matrix (n : nat) (m m' : sparse R) : Prop := forall i j, i < n -> j < n -> coeff m i j = coeff m' i j.

  Lemma same_from_elements : forall (sys : hsys R V) m m', wf_hsys sys ->
    (forall s i t j, s < rle_size (hs_subs sys) -> t < rle_size (hs_subs sys) -> i < norb_at (hs_subs sys) s -> j < norb_at (hs_subs sys) t ->
       coeff m (row_of (hs_subs sys) s i) (row_of (hs_subs sys) t j) = coeff m' (row_of (hs_subs sys) s i) (row_of (hs_subs sys) t j)) ->
    same_matrix (hamiltonian_size (hs_subs sys)) m m'.
  Proof.
    intros sys m m' W H i j Hi Hj.
    destruct (row_of_onto (hs_subs sys) i Hi) as (s & o & Hs & Ho & ->). destruct (row_of_onto (hs_subs sys) j Hj) as (t & q & Ht & Hq & ->).
    apply H; auto.
  Qed.

  Lemma batching : forall nt (sys : hsys R V) om og hm hg unshift phase simple cap1 cap2,
    nt_ok nt -> wf_hsys sys -> Forall2 os_follows om og -> Forall2 hop_follows hm hg -> (simple = true -> simple_bonds sys) ->
    cap_fits sys cap1 -> cap_fits sys cap2 ->
    exists m1 m2, ham_make cap1 nt sys om hm unshift phase simple = Ok m1 /\ ham_make cap2 nt sys om hm unshift phase simple = Ok m2 /\
      same_matrix (hamiltonian_size (hs_subs sys)) m1 m2.
  Proof.
    intros nt sys om og hm hg unshift phase simple cap1 cap2 NT W Ho Hh Hs C1 C2.
    destruct (ham_elements R V nt NT sys W unshift phase cap1 om og hm hg simple Ho Hh C1 Hs) as (m1 & E1 & _ & F1).
    destruct (ham_elements R V nt NT sys W unshift phase cap2 om og hm hg simple Ho Hh C2 Hs) as (m2 & E2 & _ & F2).
    exists m1, m2. split; auto. split; auto. apply same_from_elements; auto. intros. rewrite F1, F2 by auto. reflexivity.
  Qed.

  Definition no_change : hopping_mod R V := fun _ _ _ _ _ buf => Ok buf.
  Lemma no_change_follows : hop_follows no_change (fun _ _ _ A => A).
  Proof.
    split; [intros nm p q A B H; auto|]. intros rows cols ps qs nm buf L1 L2. exists buf. split; [reflexivity|]. split; [reflexivity|]. reflexivity.
  Qed.

  Lemma paths_agree : forall nt (sys : hsys R V) om og unshift phase simple cap,
    nt_ok nt -> wf_hsys sys -> Forall2 os_follows om og -> (simple = true -> simple_bonds sys) -> cap_fits sys cap ->
    exists m1 m2, ham_make cap nt sys om [] unshift phase simple = Ok m1 /\ ham_make cap nt sys om [no_change] unshift phase simple = Ok m2 /\
      same_matrix (hamiltonian_size (hs_subs sys)) m1 m2.
  Proof.
    intros nt sys om og unshift phase simple cap NT W Ho Hs C.
    destruct (ham_elements R V nt NT sys W unshift phase cap om og [] [] simple Ho (Forall2_nil _) C Hs) as (m1 & E1 & _ & F1).
    destruct (ham_elements R V nt NT sys W unshift phase cap om og [no_change] [fun _ _ _ A => A] simple Ho
      (Forall2_cons _ _ no_change_follows (Forall2_nil _)) C Hs) as (m2 & E2 & _ & F2).
    exists m1, m2. split; auto. split; auto. apply same_from_elements; auto. intros. rewrite F1, F2 by auto. reflexivity.
  Qed.

  Lemma block_slices : forall cap nt (sys : hsys R V) shift mods f fam rs cs coos,
    reg_get (hs_hop sys) f = Ok fam -> translator_start (hs_subs sys) (m_rows (snd fam)) = Ok rs ->
    translator_start (hs_subs sys) (m_cols (snd fam)) = Ok cs -> coos <> [] ->
    0 < mat_size (snd fam) <= cap ->
    exists sl, concat sl = coos /\ Forall (fun c => c <> [] /\ length c * mat_size (snd fam) <= cap) sl /\
      hopping_block cap nt sys shift mods f coos
      = ofold (fun acc c => obind (hopping_slice nt (hs_pos sys) shift mods fam rs cs c) (fun r => Ok (acc ++ r))) sl [].
  Proof.
    intros cap nt sys shift mods f fam rs cs coos Hg Hr Hc Hn [H0 Hcap].
    assert (DV : 0 < cap / mat_size (snd fam)) by (apply Nat.div_str_pos; lia).
    assert (LN : 0 < length coos) by (destruct coos; [congruence|cbn; lia]).
    destruct (slices_ok (length coos) (Nat.min (cap / mat_size (snd fam)) (length coos)) coos) as (sl & E & C & F); [lia|lia|].
    exists sl. split; auto. split.
    - eapply Forall_impl; [|exact F]. intros c [N1 N2]. split; auto.
      assert (length c <= cap / mat_size (snd fam)) by lia. pose proof (Nat.mul_div_le cap (mat_size (snd fam)) ltac:(lia)). nia.
    - unfold hopping_block. destruct coos as [|c0 coos]; [congruence|]. rewrite Hg. cbn [obind]. rewrite Hr. cbn [obind]. rewrite Hc. cbn [obind].
      destruct (Nat.eqb_spec (mat_size (snd fam)) 0); [lia|]. cbv zeta. rewrite E. reflexivity.
  Qed.

  Lemma slice_positions : forall (nt : ntype R) (pos : list V) shift (mods : list (hopping_mod R V)) fam rs cs coos,
    (forall c, In c coos -> fst c < length pos /\ snd c < length pos) ->
    exists p1 p2, length p1 = length coos /\ length p2 = length coos /\
      (forall k c, nth_error coos k = Some c -> nth_error p1 k = nth_error pos (fst c) /\ nth_error p2 k = nth_error pos (snd c)) /\
      hopping_slice nt pos shift mods fam rs cs coos
      = obind (ofold (fun b (m : hopping_mod R V) => in_place (m (m_rows (snd fam)) (m_cols (snd fam)) p1 (map shift p2) (fst fam)) b) mods
                 (flat_map (fun v => repeat (nt_cast nt v) (length coos)) (mat_vals (snd fam))))
              (fun b => emit (hopping_indices rs cs (m_rows (snd fam)) (m_cols (snd fam)) coos) b).
  Proof.
    intros nt pos shift mods fam rs cs coos H.
    destruct (osequence_aget pos fst coos) as (p1 & E1 & L1 & F1); [intros c Hc; apply H; auto|].
    destruct (osequence_aget pos snd coos) as (p2 & E2 & L2 & F2); [intros c Hc; apply H; auto|].
    exists p1, p2. split; auto. split; auto. split; [intros k c Hk; auto|]. unfold hopping_slice. rewrite E1. cbn [obind]. rewrite E2. reflexivity.
  Qed.

  Lemma step_zero : forall cap nt (sys : hsys R V) shift mods f fam rs cs coos,
    reg_get (hs_hop sys) f = Ok fam -> translator_start (hs_subs sys) (m_rows (snd fam)) = Ok rs ->
    translator_start (hs_subs sys) (m_cols (snd fam)) = Ok cs -> coos <> [] -> cap < mat_size (snd fam) ->
    hopping_block cap nt sys shift mods f coos = UB.
  Proof.
    intros cap nt sys shift mods f fam rs cs coos Hg Hr Hc Hn H.
    unfold hopping_block. destruct coos as [|c0 coos]; [congruence|]. rewrite Hg. cbn [obind]. rewrite Hr. cbn [obind]. rewrite Hc. cbn [obind].
    destruct (Nat.eqb_spec (mat_size (snd fam)) 0); [lia|]. cbv zeta. rewrite Nat.div_small by auto. cbn [Nat.min].
    rewrite slices_zero by discriminate. reflexivity.
  Qed.

  (** A generated hopping from [a] to [b] (one stored bond between the two sites). *)
  Lemma generated_direction : forall nt (sys : hsys R V) h f rows cols e om og unshift phase cap a b,
    nt_ok nt -> wf_hsys sys -> cap_fits sys cap -> Forall2 os_follows om og -> hs_bounds sys = [] ->
    hb_append h f rows cols = Ok (hs_hops sys) -> f < length (hb_blocks h) ->
    In (a, b) (combine rows cols) -> a <> b ->
    reg_entry (hs_hop sys) f = e ->
    (forall g, ~ In (g, (a, b)) (stored h) /\ ~ In (g, (b, a)) (stored h)) ->
    exists m, ham_make cap nt sys om [] unshift phase false = Ok m /\
      forall i j, i < norb_at (hs_subs sys) a -> j < norb_at (hs_subs sys) b ->
        coeff m (row_of (hs_subs sys) a i) (row_of (hs_subs sys) b j)
          = (if a <? b then nt_cast nt (m_at (snd e) i j) else nt_conj nt (nt_cast nt (m_at (snd e) j i))) /\
        coeff m (row_of (hs_subs sys) b j) (row_of (hs_subs sys) a i)
          = (if a <? b then nt_conj nt (nt_cast nt (m_at (snd e) i j)) else nt_cast nt (m_at (snd e) j i)).
  Proof.
    intros nt sys h f rows cols e om og unshift phase cap a b NT W C Ho HB EA Hf Hin Nab Ee Hno.
    destruct (ham_elements R V nt NT sys W unshift phase cap om og [] [] false Ho (Forall2_nil _) C ltac:(discriminate)) as (m & E & _ & F).
    exists m. split; auto.
    assert (LR : length rows = length cols).
    { destruct (Nat.eq_dec (length rows) (length cols)); auto. rewrite BlocksProofs.hb_append_mismatch in EA by auto. discriminate. }
    destruct (nth_error (hb_blocks h) f) as [b0|] eqn:Eb0; [|apply nth_error_None in Eb0; lia].
    destruct (append_exact h f rows cols b0 LR Eb0) as (h' & b' & E1 & E2 & ND & OTH & MEM). rewrite EA in E1. injection E1 as <-.
    assert (RQ : requested rows cols a b /\ requested rows cols b a).
    { unfold requested. split; [left; exact Hin|right; exact Hin]. }
    assert (OLD : forall x y, In (f, (x, y)) (stored h) <-> In (x, y) b0).
    { intros x y. rewrite in_stored_iff, (nth_error_nth _ _ _ Eb0). reflexivity. }
    assert (NEW : forall x y, In (f, (x, y)) (stored (hs_hops sys)) <-> In (x, y) b').
    { intros x y. rewrite in_stored_iff, (nth_error_nth _ _ _ E2). reflexivity. }
    assert (OT : forall g x y, g <> f -> In (g, (x, y)) (stored (hs_hops sys)) -> In (g, (x, y)) (stored h)).
    { intros g x y Ng Hg. rewrite in_stored_iff in *.
      destruct (nth_error (hb_blocks h) g) as [bg|] eqn:Eg.
      - rewrite (nth_error_nth _ _ _ Eg). rewrite <- (OTH g Ng) in Eg. rewrite (nth_error_nth _ _ _ Eg) in Hg. exact Hg.
      - rewrite <- (OTH g Ng) in Eg. apply nth_error_None in Eg. rewrite nth_overflow in Hg by auto. destruct Hg. }
    assert (WH : wf_hops sys (hs_hops sys)) by apply W. destruct WH as [_ WH].
    assert (LP : length (hs_pos sys) = rle_size (hs_subs sys)) by apply W.
    destruct (Nat.ltb_spec a b) as [L|L].
    - assert (Iab : In (a, b) b') by (apply MEM; right; split; [lia|tauto]).
      destruct (WH f (a, b)) as (W1 & W2 & _); [apply NEW; auto|]. cbn [fst snd] in W1, W2.
      intros i j Hi Hj. rewrite !F by auto. subst e.
      apply (lone_bond R V nt NT sys og unshift phase f b' a b HB E2 ND Iab Nab).
      + intros g Hg. destruct (Nat.eq_dec g f); auto. exfalso. apply (proj1 (Hno g)). apply OT; auto.
      + intros g Hg. destruct (Nat.eq_dec g f) as [->|Ng].
        * apply NEW in Hg. apply MEM in Hg. destruct Hg as [Hg|[Hle _]]; [|lia]. apply (proj2 (Hno f)). apply OLD. exact Hg.
        * apply (proj2 (Hno g)). apply OT; auto.
      + lia.
      + lia.
    - assert (Iba : In (b, a) b') by (apply MEM; right; split; [lia|tauto]).
      destruct (WH f (b, a)) as (W1 & W2 & _); [apply NEW; auto|]. cbn [fst snd] in W1, W2.
      intros i j Hi Hj. rewrite !F by auto. subst e.
      cut (element nt sys og [] unshift phase b j a i = nt_cast nt (m_at (snd (reg_entry (hs_hop sys) f)) j i) /\
           element nt sys og [] unshift phase a i b j = nt_conj nt (nt_cast nt (m_at (snd (reg_entry (hs_hop sys) f)) j i))); [tauto|].
      apply (lone_bond R V nt NT sys og unshift phase f b' b a HB E2 ND Iba ltac:(auto)).
      + intros g Hg. destruct (Nat.eq_dec g f); auto. exfalso. apply (proj2 (Hno g)). apply OT; auto.
      + intros g Hg. destruct (Nat.eq_dec g f) as [->|Ng].
        * apply NEW in Hg. apply MEM in Hg. destruct Hg as [Hg|[Hle _]]; [|lia]. apply (proj1 (Hno f)). apply OLD. exact Hg.
        * apply (proj1 (Hno g)). apply OT; auto.
      + lia.
      + lia.
  Qed.
End C.

(** Models made with the lattice API and built without structure modifiers. *)
Section ApiCor.
  Variable R : scalar.
  Variable P : Type.

  Definition fits_buffer (fams : list (family R)) (cap : nat) : Prop := forall f, In f fams -> mat_size (fm_energy f) <= cap.

  Lemma api_hamiltonian : forall offset_ok order (cs : list (lcall R P)) subs fams uc reg hreg size s valid fpos dflt shift,
    let l := calls offset_ok order cs in
    Permutation subs (l_subs l) -> Permutation fams (l_fams l) -> unit_cell subs fams = Ok uc ->
    site_registry subs = Ok reg -> hopping_registry fams = Ok hreg ->
    (forall x o, In x (l_subs l) -> In o (l_subs l) -> sb_uid o = sb_alias x -> primary o) ->
    positive_block size -> block_holds_period size s -> length valid = num_block_sites size (length uc) ->
    (forall i a, cell_of size i -> a < length uc -> flagged size valid (i, a) = true -> in_period size s i) ->
    length fpos = num_block_sites size (length uc) ->
    exists sys, build_system dflt size uc s shift reg hreg fpos valid = Ok sys /\ wf_hsys sys /\
      (forall nt, (forall x, nt_cast nt (kconj x) = nt_conj nt (nt_cast nt x)) -> hermitian_energies nt sys) /\
      forall nt om og hm hg unshift phase simple cap, nt_ok nt -> Forall2 os_follows om og -> Forall2 hop_follows hm hg -> fits_buffer (l_fams l) cap ->
      exists m, ham_make cap nt sys om hm unshift phase simple = Ok m /\
        (forall e, In e m -> fst (fst e) < hamiltonian_size (hs_subs sys) /\ snd (fst e) < hamiltonian_size (hs_subs sys)) /\
        forall a i b j, a < rle_size (hs_subs sys) -> b < rle_size (hs_subs sys) -> i < norb_at (hs_subs sys) a -> j < norb_at (hs_subs sys) b ->
          coeff m (row_of (hs_subs sys) a i) (row_of (hs_subs sys) b j) = element nt sys og hg unshift phase a i b j.
  Proof.
    intros oo order cs subs fams uc reg hreg size s valid fpos dflt shift l Hs Hf Hu Hr Hh Hp Hsz Hpr Hv Hin Hfp.
    destruct (system_ok R P oo order cs subs fams Hs Hf uc Hu reg hreg Hr Hh Hp size Hsz s Hpr valid Hv Hin fpos dflt Hfp shift) as (sys & E & W & SB & HE & HF).
    exists sys. split; auto. split; auto. split.
    - intros nt Hnt e He. destruct (HE e He) as (sb & S1 & S2 & S3). destruct W as (_ & _ & W & _). destruct (W e He) as (_ & _ & M1 & M2).
      cbv zeta. split; auto. split; auto. intros i j Hi Hj. rewrite S3. rewrite <- Hnt. f_equal.
      destruct (li_sub _ _ _ (inv_calls R P oo order cs) sb S1) as (_ & _ & _ & H). rewrite S3 in M1. apply H; lia.
    - intros nt om og hm hg unshift phase simple cap NT Ho Hhm Hc.
      destruct (ham_elements R P nt NT sys W unshift phase cap om og hm hg simple Ho Hhm) as (m & Em & IR & F).
      + intros h Hhh f c Hin'. destruct (HF f c h Hhh Hin') as (fam & F1 & F2 & ->). apply Hc. exact F1.
      + auto.
      + exists m. auto.
  Qed.
End ApiCor.

Lemma complex_ok : forall R : scalar, nt_ok (@complex_type R).
Proof.
  intros R. unfold nt_ok. cbn [nt_cast nt_conj complex_type]. split; [reflexivity|]. split; [apply kconj_0|]. split; [apply kconj_add|apply kconj_conj].
Qed.

(** A well-formed system whose hopping matrix is larger than the buffer. *)
Definition wide_sys (R : scalar) (n : nat) : hsys R nat :=
  HSys [Elem 0 1 1; Elem 1 1 n] [0; 1] [(Nm 1, Mat 1 1 (fun _ _ => k0)); (Nm 2, Mat n n (fun _ _ => k0))]
       [(Nm 3, Mat 1 n (fun _ _ => k1))] (HB 2 [[(0, 1)]]) [].
Lemma wide_wf : forall R n, 0 < n -> wf_hsys (wide_sys R n).
Proof.
  intros R n Hn. unfold wf_hsys, wide_sys. cbn [hs_pos hs_subs hs_site hs_hops hs_bounds]. split; [reflexivity|].
  split; [cbn [orbital_counts map e_norb is_sorted]; destruct (Nat.leb_spec 1 n); [reflexivity|lia]|].
  split; [|split; [|intros b []]].
  - intros e [<-|[<-|[]]]; cbn; lia.
  - split; [cbn; lia|]. intros f c [H|[]]. injection H as <- <-. cbn. repeat split; lia.
Qed.
Lemma wide_never_ends : forall R cap m nt unshift phase simple,
  ham_make cap nt (wide_sys R (S (S cap))) [] [] unshift phase simple <> Ok m.
Proof.
  intros R cap m nt unshift phase simple E. unfold ham_make, build_main in E.
  destruct (apply_to_onsite nt (wide_sys R (S (S cap))) []); cbn [obind] in E; try discriminate.
  assert (X : apply_to_hoppings cap nt (wide_sys R (S (S cap))) (fun p => p) [] (hs_hops (wide_sys R (S (S cap)))) = UB).
  { unfold apply_to_hoppings. cbn [hs_hops wide_sys hb_blocks with_family length seq combine ofold fst snd].
    assert (HM : has_multiple_orbitals (hs_hop (wide_sys R (S (S cap)))) = true) by reflexivity.
    cbn [wide_sys] in HM |- *. rewrite HM. cbn [negb andb Nat.eqb].
    change (@HSys R nat [Elem 0 1 1; Elem 1 1 (S (S cap))] [0; 1] [(Nm 1, Mat 1 1 (fun _ _ => k0)); (Nm 2, Mat (S (S cap)) (S (S cap)) (fun _ _ => k0))]
       [(Nm 3, Mat 1 (S (S cap)) (fun _ _ => k1))] (HB 2 [[(0, 1)]]) []) with (wide_sys R (S (S cap))).
    rewrite (step_zero R nat cap nt (wide_sys R (S (S cap))) _ [] 0 (Nm 3, Mat 1 (S (S cap)) (fun _ _ => k1)) (0, 0) (1, 1) [(0, 1)]); try reflexivity.
    - unfold wide_sys, translator_start, start_index. cbn [snd m_cols hs_subs iter].
      cbn. rewrite Nat.eqb_refl. cbn. reflexivity.
    - discriminate.
    - unfold mat_size. cbn [snd m_rows m_cols]. lia. }
  rewrite X in E. discriminate.
Qed.
