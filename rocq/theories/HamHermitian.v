(* The assembled Hamiltonian equals its conjugate transpose (C17), for arbitrary hopping
   modifiers; direction of generated hoppings (C14). *)
From Verif Require Import Base Rle RleProofs Blocks BlocksProofs TablesSpec TablesProofs Scalar Foundation Lattice Hamiltonian HamiltonianSpec HamProofs HamElements HamFacts.
From Coq Require Import Permutation.

Section H.
  Variable R : scalar.
  Variable V : Type.
  Add Ring Rring5 : (k_ring R).
  Variable nt : ntype R.
  Hypothesis NT_ok : nt_ok nt.
  Variable sys : hsys R V.
  Notation elem := (@HamiltonianSpec.elem R).

  Definition sym (m : sparse R) : Prop := forall a b, coeff m b a = nt_conj nt (coeff m a b).

  Lemma sym_app : forall m1 m2, sym m1 -> sym m2 -> sym (m1 ++ m2).
  Proof. intros m1 m2 H1 H2 a b. rewrite !coeff_app, H1, H2. destruct NT_ok as (_ & _ & NA & _). rewrite NA. reflexivity. Qed.

  Lemma sym_nil : sym [].
  Proof. intros a b. destruct NT_ok as (_ & N0 & _). symmetry. exact N0. Qed.

  Lemma sym_concat : forall ms, Forall sym ms -> sym (concat ms).
  Proof. intros ms H. induction H; cbn [concat]; [apply sym_nil|apply sym_app; auto]. Qed.

  Lemma sym_bothn : forall ts, sym (flat_map (bothn (nt_conj nt)) ts).
  Proof.
    intros ts a b. destruct NT_ok as (_ & N0 & NA & NI). rewrite !coeff_bothn, !coeff_flip by auto. rewrite NA, NI. ring.
  Qed.

  (** Stored positions are symmetric. *)
  Definition patt (m : sparse R) : Prop := forall a b, In (a, b) (map fst m) -> In (b, a) (map fst m).
  Lemma patt_app : forall m1 m2, patt m1 -> patt m2 -> patt (m1 ++ m2).
  Proof. intros m1 m2 H1 H2 a b. rewrite map_app, !in_app_iff. intros [I|I]; [left; apply H1|right; apply H2]; exact I. Qed.
  Lemma patt_concat : forall ms, Forall patt ms -> patt (concat ms).
  Proof. intros ms H. induction H; cbn [concat]; [intros a b []|apply patt_app; auto]. Qed.
  Lemma patt_bothn : forall ts, patt (flat_map (bothn (nt_conj nt)) ts).
  Proof.
    intros ts a b I. apply in_map_iff in I. destruct I as (e & E & I). apply in_flat_map in I. destruct I as (t & It & Ie).
    apply in_map_iff. destruct t as [[x y] v]. cbn in Ie. destruct Ie as [<-|[<-|[]]].
    - exists (flip (nt_conj nt) ((x, y), v)). cbn in E. injection E as <- <-. split; [reflexivity|]. apply in_flat_map. exists ((x, y), v). split; [exact It|right; left; reflexivity].
    - exists ((x, y), v). cbn in E. injection E as <- <-. split; [reflexivity|]. apply in_flat_map. exists ((x, y), v). split; [exact It|left; reflexivity].
  Qed.

  Lemma zt_inj : forall a b : coo * R, zt a = zt b -> a = b.
  Proof.
    intros [[a1 a2] v] [[b1 b2] w] E. unfold zt in E. cbn [fst snd] in E. apply pair_equal_spec in E. destruct E as [E ->].
    apply pair_equal_spec in E. destruct E as [E1 E2]. apply Nat2Z.inj in E1. apply Nat2Z.inj in E2. subst. reflexivity.
  Qed.
  Lemma map_zt_inj : forall l1 l2 : list (coo * R), map zt l1 = map zt l2 -> l1 = l2.
  Proof.
    induction l1 as [|a l1 IH]; intros [|b l2] E; try discriminate; auto. cbn [map] in E.
    assert (E1 : zt a = zt b) by congruence. assert (E2 : map zt l1 = map zt l2) by congruence.
    apply zt_inj in E1. apply IH in E2. subst. reflexivity.
  Qed.

  Lemma both_inv : forall cj ts (es : list (coo * R)), flat_map (both cj) ts = map zt es ->
    exists ts', ts = map zt ts' /\ es = flat_map (bothn cj) ts'.
  Proof.
    intros cj ts. induction ts as [|[[i j] v] ts IH]; intros es E.
    - destruct es; [|discriminate]. exists []. auto.
    - cbn [flat_map both app] in E. destruct es as [|e1 [|e2 es]]; [discriminate|discriminate|].
      cbn [map] in E. remember (zt e1) as z1 eqn:Z1. remember (zt e2) as z2 eqn:Z2.
      assert (E1 : (i, j, v) = z1) by congruence. assert (E2 : (j, i, cj v) = z2) by congruence.
      assert (E3 : flat_map (both cj) ts = map zt es) by congruence. clear E.
      apply IH in E3. destruct E3 as (ts' & -> & ->). exists (e1 :: ts'). cbn [map flat_map].
      split; [f_equal; congruence|].
      cbn [bothn app]. f_equal. f_equal.
      subst z1 z2. destruct e1 as [[a b] w]. destruct e2 as [[a' b'] w']. unfold zt in E1, E2. cbn [fst snd] in E1, E2.
      apply pair_equal_spec in E1. destruct E1 as [E1 ->]. apply pair_equal_spec in E1. destruct E1 as [-> ->].
      apply pair_equal_spec in E2. destruct E2 as [E2 <-]. apply pair_equal_spec in E2. destruct E2 as [E2 E4].
      apply Nat2Z.inj in E2. apply Nat2Z.inj in E4. subst. reflexivity.
  Qed.

  (* ---------------- onsite ---------------- *)
  Definition grid_entries (h n N : nat) (b : list R) : list (coo * R) :=
    flat_map (fun i => flat_map (fun j => map (fun kx => ((i + (h + snd kx * n), j + (h + snd kx * n)), elem n N b i j (fst kx)))
       (with_family (seq 0 N))) (seq 0 n)) (seq 0 n).

  Lemma grid_sym : forall h n N b, herm_array nt n N b -> sym (grid_entries h n N b).
  Proof.
    intros h n N b Hb x y. destruct NT_ok as (_ & N0 & NA & _).
    assert (E : forall x y, coeff (grid_entries h n N b) x y
      = ksum (fun i => ksum (fun j => ksum (fun kx : nat * nat => if coo_eqb (i + (h + snd kx * n), j + (h + snd kx * n)) (x, y) then elem n N b i j (fst kx) else k0)
           (with_family (seq 0 N))) (seq 0 n)) (seq 0 n)).
    { intros a c. unfold grid_entries, coeff. rewrite ksum_flat_map. apply ksum_ext. intros i _.
      rewrite ksum_flat_map. apply ksum_ext. intros j _. rewrite ksum_map. reflexivity. }
    rewrite !E. rewrite ksum_swap. rewrite (ksum_ntconj R nt NT_ok). apply ksum_ext. intros i Hi.
    rewrite (ksum_ntconj R nt NT_ok). apply ksum_ext. intros j Hj. rewrite (ksum_ntconj R nt NT_ok). apply ksum_ext. intros [k q] Hk.
    apply in_seq in Hi. apply in_seq in Hj. apply with_family_nth in Hk.
    assert (k < N) by (rewrite <- (seq_length N 0); apply nth_error_Some; congruence).
    cbn [fst snd]. rewrite coo_eqb_flip. destruct (coo_eqb _ _); [apply Hb; lia|symmetry; exact N0].
  Qed.

  Lemma grid_patt : forall h n N b, herm_array nt n N b -> patt (filter nz (grid_entries h n N b)).
  Proof.
    intros h n N b Hb x y I. destruct NT_ok as (_ & N0 & _). apply in_map_iff in I. destruct I as (e & E & I). apply filter_In in I. destruct I as (I & Nz).
    unfold grid_entries in I. apply in_flat_map in I. destruct I as (i & Hi & I). apply in_flat_map in I. destruct I as (j & Hj & I).
    apply in_map_iff in I. destruct I as ([k q] & <- & Hk). cbn [fst snd] in *. injection E as <- <-.
    assert (Lk : k < N) by (apply with_family_nth in Hk; rewrite <- (seq_length N 0); apply nth_error_Some; congruence).
    pose proof Hi as Li. apply in_seq in Li. pose proof Hj as Lj. apply in_seq in Lj.
    apply in_map_iff. exists ((j + (h + q * n), i + (h + q * n)), elem n N b j i k). split; [reflexivity|]. apply filter_In. split.
    - unfold grid_entries. apply in_flat_map. exists j. split; [exact Hj|]. apply in_flat_map. exists i. split; [exact Hi|]. apply in_map_iff. exists (k, q). auto.
    - unfold nz in *. cbn [snd] in *. apply negb_true_iff. apply negb_true_iff in Nz. destruct (keqb (elem n N b j i k) k0) eqn:Z; [|reflexivity].
      apply keqb_eq in Z. rewrite (Hb j i k) in Nz by lia. rewrite Z, N0 in Nz. rewrite (proj2 (keqb_eq R k0 k0) eq_refl) in Nz. discriminate.
  Qed.

  Lemma in_place_inv : forall f (buf r : list R), in_place f buf = Ok r -> f buf = Ok r /\ length r = length buf.
  Proof.
    intros f buf r H. unfold in_place in H. destruct (f buf) as [b| |]; cbn [obind] in H; try discriminate.
    destruct (Nat.eqb_spec (length b) (length buf)); [|discriminate]. injection H as <-. auto.
  Qed.

  Lemma mods_hermitian : forall ms n (ps : list V) nm buf buf', Forall (keeps_hermitian nt) ms ->
    length buf = length ps * n * n -> herm_array nt n (length ps) buf ->
    ofold (fun b m => in_place (m n ps nm) b) ms buf = Ok buf' ->
    length buf' = length ps * n * n /\ herm_array nt n (length ps) buf'.
  Proof.
    intros ms. induction ms as [|m ms IH]; intros n ps nm buf buf' Hm L Hh E; cbn [ofold] in E.
    - injection E as <-. auto.
    - inversion Hm as [|? ? M1 M2]; subst. destruct (in_place (m n ps nm) buf) as [b| |] eqn:F; cbn [obind] in E; try discriminate.
      apply in_place_inv in F. destruct F as [F LF]. eapply IH; [exact M2| | |exact E]; [congruence|].
      eapply M1; eauto.
  Qed.

  Lemma onsite_sym : forall om r, hermitian_energies nt sys -> Forall (keeps_hermitian nt) om ->
    apply_to_onsite nt sys om = Ok r -> exists es, r = map zt es /\ sym es /\ patt es.
  Proof.
    intros om r He Hm E. unfold apply_to_onsite in E. destruct NT_ok as (NC & N0 & NA & NI).
    destruct (negb (has_nonzero_energy (hs_site sys)) && (length om =? 0)); [injection E as <-; exists []; split; [reflexivity|split; [apply sym_nil|intros a b []]]|].
    assert (E' : ofold (fun acc s => obind (obind (onsite_buffer nt sys om (has_nonzero_energy (hs_site sys)) s) (fun b => emit (onsite_indices s) b)) (fun r => Ok (acc ++ r)))
        (iter (hs_subs sys)) [] = Ok r).
    { rewrite <- E. clear E. generalize (@nil (Z * Z * R)). induction (iter (hs_subs sys)) as [|s l IH]; intros acc; [reflexivity|].
      cbn [ofold]. destruct (onsite_buffer nt sys om (has_nonzero_energy (hs_site sys)) s) as [b| |]; cbn [obind]; auto.
      destruct (emit (onsite_indices s) b) as [q| |]; cbn [obind]; auto. }
    clear E. apply (ofold_app_inv (fun s => obind (onsite_buffer nt sys om (has_nonzero_energy (hs_site sys)) s) (fun b => emit (onsite_indices s) b))) in E'.
    destruct E' as (rs & F & ->). cbn [app].
    assert (G : exists ess, rs = map (map zt) ess /\ Forall sym ess /\ Forall patt ess).
    { assert (IT : forall s, In s (iter (hs_subs sys)) -> In (it_e s) (hs_subs sys)).
      { intros s Hs. destruct (iter_facts (hs_subs sys) 0 0 s Hs) as (I & _). exact I. }
      induction F as [|s x l rs Hx F IH]; [exists []; split; [reflexivity|split; constructor]|].
      destruct IH as (ess & -> & Hess & Hpat); [intros s' Hs'; apply IT; right; auto|].
      specialize (IT s (or_introl eq_refl)). destruct (He _ IT) as (D1 & D2 & D3). cbv zeta in D1, D2, D3.
      destruct (onsite_buffer nt sys om (has_nonzero_energy (hs_site sys)) s) as [b| |] eqn:Eb; cbn [obind] in Hx; try discriminate.
      set (n := e_norb (it_e s)) in *. set (N := e_num (it_e s)) in *. set (en := snd (reg_entry (hs_site sys) (e_id (it_e s)))) in *.
      assert (HB : length b = N * n * n /\ herm_array nt n N b).
      { unfold onsite_buffer in Eb. fold n N in Eb.
        match type of Eb with obind ?t _ = _ => destruct t as [b0| |] eqn:E0; cbn [obind] in Eb; try discriminate end.
        assert (H0 : length b0 = N * n * n /\ herm_array nt n N b0).
        { destruct (has_nonzero_energy (hs_site sys)).
          - unfold reg_get in E0. destruct (nth_error (hs_site sys) (e_id (it_e s))) as [en'|] eqn:En; cbn [obind] in E0; try discriminate.
            assert (EQ : snd en' = en) by (unfold en, reg_entry; rewrite (nth_error_nth _ _ _ En); reflexivity). rewrite EQ in E0.
            assert (Fl := fill_ok R N (map (nt_cast nt) (mat_vals en)) [] (repeat k0 (N * n * n))). cbn [app length] in Fl.
            rewrite Fl in E0 by (rewrite repeat_length, map_length, mat_vals_length, D1, D2; lia). injection E0 as <-.
            rewrite flat_map_map. split; [rewrite (replicate_length R (nt_cast nt)), mat_vals_length, D1, D2; lia|].
            intros i j k Hi Hj Hk. rewrite <- D2.
            rewrite !elem_replicate by (auto; congruence). apply D3; auto.
          - injection E0 as <-. rewrite repeat_length. split; [reflexivity|]. intros i j k _ _ _. unfold HamiltonianSpec.elem.
            rewrite !nth_repeat. symmetry. exact N0. }
        destruct om as [|m om'].
        - injection Eb as <-. exact H0.
        - unfold segment in Eb. destruct (Nat.leb_spec (it_sys s + N) (length (hs_pos sys))) as [LE|]; cbn [obind] in Eb; [|discriminate].
          unfold reg_get in Eb. destruct (nth_error (hs_site sys) (e_id (it_e s))) as [en'|] eqn:En; cbn [obind] in Eb; try discriminate.
          assert (LP : length (firstn N (skipn (it_sys s) (hs_pos sys))) = N) by (rewrite firstn_length, skipn_length; lia).
          destruct H0 as [L0 H0]. rewrite <- LP in L0, H0 at 1.
          pose proof (mods_hermitian (m :: om') n (firstn N (skipn (it_sys s) (hs_pos sys))) (fst en') b0 b Hm L0 H0 Eb) as Q. rewrite LP in Q. exact Q. }
      destruct HB as [LB HB].
      assert (IDX : onsite_indices s = map zz (flat_map (fun i => flat_map (fun j => map (fun k => (i + (it_ham s + k * n), j + (it_ham s + k * n))) (seq 0 N)) (seq 0 n)) (seq 0 n))).
      { unfold onsite_indices. fold n N. rewrite map_flat_map. apply flat_map_ext. intros i. rewrite map_flat_map. apply flat_map_ext. intros j.
        rewrite map_map. apply map_ext. intros k. reflexivity. }
      rewrite IDX, emit_ok in Hx.
      2: { assert (G : forall A B (h : A -> list B) c l, (forall a, length (h a) = c) -> length (flat_map h l) = length l * c).
           { clear. intros A B h c l H. induction l as [|a l IH]; [reflexivity|]. cbn [flat_map length]. rewrite app_length, H, IH. lia. }
           rewrite (G _ _ _ (n * N)).
           - rewrite seq_length. lia.
           - intros i. rewrite (G _ _ _ N); [rewrite seq_length; lia|]. intros. rewrite map_length, seq_length. reflexivity. }
      rewrite grid_combine in Hx by (rewrite seq_length; lia). rewrite seq_length in Hx. fold (grid_entries (it_ham s) n N b) in Hx.
      injection Hx as <-. exists (filter nz (grid_entries (it_ham s) n N b) :: ess). split; [reflexivity|]. split; constructor; auto.
      - intros p q. rewrite !coeff_nz. apply grid_sym; auto.
      - apply grid_patt; auto. }
    destruct G as (ess & -> & Hess & Hpat). exists (concat ess). split; [symmetry; apply concat_map|]. split; [apply sym_concat; auto|apply patt_concat; auto].
  Qed.

  (** C17, for modifiers that are arbitrary functions *)
  Lemma ham_symmetric : forall cap om hm unshift phase simple m,
    hermitian_energies nt sys -> Forall (keeps_hermitian nt) om ->
    ham_make cap nt sys om hm unshift phase simple = Ok m -> sym m /\ patt m.
  Proof.
    intros cap om hm unshift phase simple m He Hm E. unfold ham_make in E.
    destruct (build_main cap nt sys om hm simple) as [m0| |] eqn:E0; cbn [obind] in E; try discriminate.
    assert (S0 : sym m0 /\ patt m0).
    { unfold build_main in E0. destruct (apply_to_onsite nt sys om) as [os| |] eqn:Eo; cbn [obind] in E0; try discriminate.
      destruct (apply_to_hoppings cap nt sys (fun p => p) hm (hs_hops sys)) as [hs| |]; cbn [obind] in E0; try discriminate.
      destruct (onsite_sym om os He Hm Eo) as (es & -> & Ses & Pes). apply puts_inv in E0. destruct E0 as (all & Ea & _ & ->). cbn [app].
      assert (L : exists a1 a2, all = a1 ++ a2 /\ map zt es = map zt a1 /\ flat_map (both (nt_conj nt)) hs = map zt a2).
      { symmetry in Ea. apply map_eq_app in Ea. destruct Ea as (a1 & a2 & -> & E1 & E2). exists a1, a2. auto. }
      destruct L as (a1 & a2 & -> & E1 & E2). apply map_zt_inj in E1. subst a1. apply both_inv in E2. destruct E2 as (ts & _ & ->).
      split; [apply sym_app; [exact Ses|apply sym_bothn]|apply patt_app; [exact Pes|apply patt_bothn]]. }
    unfold build_periodic in E. clear E0. revert m0 S0 E. induction (hs_bounds sys) as [|b bs IH]; intros m0 S0 E; cbn [ofold] in E.
    - injection E as <-. exact S0.
    - destruct (apply_to_hoppings cap nt sys (fun p => unshift p (snd b)) hm (fst b)) as [hs| |]; cbn [obind] in E; try discriminate.
      destruct (ofold (put false (hamiltonian_size (hs_subs sys))) (flat_map (both (nt_conj nt)) (map (scale_by (nt_cast nt (phase (snd b)))) hs)) m0)
        as [m1| |] eqn:E1; cbn [obind] in E; try discriminate.
      apply puts_inv in E1. destruct E1 as (es & E1 & _ & ->). apply both_inv in E1. destruct E1 as (ts & _ & ->).
      apply IH in E; auto. destruct S0 as (S0 & P0). split; [apply sym_app; auto; apply sym_bothn|apply patt_app; auto; apply patt_bothn].
  Qed.
  Lemma ham_hermitian : forall cap om hm unshift phase simple m,
    hermitian_energies nt sys -> Forall (keeps_hermitian nt) om ->
    ham_make cap nt sys om hm unshift phase simple = Ok m -> sym m.
  Proof. intros cap om hm unshift phase simple m He Hm E. apply (ham_symmetric cap om hm unshift phase simple m He Hm E). Qed.

  (* ---------------- one bond between two sites ---------------- *)
  Lemma ksum_unique : forall {A} (f : A -> R) l x, NoDup l -> In x l -> (forall y, In y l -> y <> x -> f y = k0) -> ksum f l = f x.
  Proof.
    intros A f l x N I H. induction l as [|y l IH]; [destruct I|]. inversion N as [|? ? N1 N2]; subst. rewrite ksum_cons.
    destruct I as [->|I].
    - rewrite (ksum_0 R f l); [ring|]. intros z Hz. apply H; [right; auto|]. intros ->. auto.
    - rewrite (H y); [|left; auto|intros ->; auto]. rewrite IH; auto; [ring|]. intros z Hz. apply H. right; auto.
  Qed.

  Lemma lone_bond : forall og unshift phase f blk a b,
    hs_bounds sys = [] -> nth_error (hb_blocks (hs_hops sys)) f = Some blk -> NoDup blk -> In (a, b) blk -> a <> b ->
    (forall g, In (g, (a, b)) (stored (hs_hops sys)) -> g = f) -> (forall g, ~ In (g, (b, a)) (stored (hs_hops sys))) ->
    a < length (hs_pos sys) -> b < length (hs_pos sys) ->
    forall i j, element nt sys og [] unshift phase a i b j = nt_cast nt (m_at (snd (reg_entry (hs_hop sys) f)) i j) /\
      element nt sys og [] unshift phase b j a i = nt_conj nt (nt_cast nt (m_at (snd (reg_entry (hs_hop sys) f)) i j)).
  Proof.
    intros og unshift phase f blk a b HB Hblk ND HI Nab Hu Hr La Lb i j. destruct NT_ok as (NC & N0 & NA & NI).
    assert (ST : forall g c, In (g, c) (stored (hs_hops sys)) <-> exists l, nth_error (hb_blocks (hs_hops sys)) g = Some l /\ In c l).
    { intros g c. unfold stored. rewrite in_flat_map. split.
      - intros ([g' l] & Hl & Hc). apply in_map_iff in Hc. destruct Hc as (c' & E & Hc). cbn [fst snd] in *. injection E as -> ->.
        apply with_family_nth in Hl. eauto.
      - intros (l & Hl & Hc). exists (g, l). split; [apply with_family_nth; auto|]. apply in_map_iff. eauto. }
    assert (S : forall F : nat * (nat * nat) -> R, (forall g c, In (g, c) (stored (hs_hops sys)) -> (g, c) <> (f, (a, b)) -> F (g, c) = k0) ->
      ksum F (stored (hs_hops sys)) = F (f, (a, b))).
    { intros F HF. unfold stored. rewrite ksum_flat_map.
      rewrite (ksum_unique _ _ (f, blk)).
      - rewrite ksum_map. cbn [fst snd]. apply (ksum_unique (fun c => F (f, c)) blk (a, b)); auto.
        intros c Hc Nc. apply HF; [apply ST; eauto|congruence].
      - apply (NoDup_map_inv fst). change (combine (seq 0 (length (hb_blocks (hs_hops sys)))) (hb_blocks (hs_hops sys))) with (with_family (hb_blocks (hs_hops sys))).
        unfold with_family.
        assert (CF : forall (l : list (list coo)) n, map fst (combine (seq n (length l)) l) = seq n (length l)).
        { clear. induction l as [|x l IH]; intros n; [reflexivity|]. cbn [length seq combine map fst]. rewrite IH. reflexivity. }
        rewrite CF. apply seq_NoDup.
      - apply (with_family_nth (hb_blocks (hs_hops sys))). exact Hblk.
      - intros [g l] Hl Ng. rewrite ksum_map. cbn [fst snd]. apply ksum_0. intros c Hc. apply HF.
        + apply ST. exists l. split; auto. apply (with_family_nth (hb_blocks (hs_hops sys))). exact Hl.
        + intros E. injection E as -> ->. apply (with_family_nth (hb_blocks (hs_hops sys))) in Hl. rewrite Hblk in Hl. injection Hl as <-. apply Ng. reflexivity. }
    assert (HM : m_at (hop_matrix nt sys [] (fun p => p) f (a, b)) i j = nt_cast nt (m_at (snd (reg_entry (hs_hop sys) f)) i j)).
    { unfold hop_matrix. cbn [fst snd]. destruct (nth_error (hs_pos sys) a); [destruct (nth_error (hs_pos sys) b)|]; reflexivity. }
    unfold element. rewrite HB. split.
    - destruct (Nat.eqb_spec a b) as [|_]; [contradiction|]. rewrite ksum_nil, S.
      + cbn [fst snd]. unfold hop_part. cbn [fst snd]. rewrite !Nat.eqb_refl, HM. cbn [andb].
        destruct (Nat.eqb_spec a b) as [|_]; [contradiction|]. cbn [andb]. ring.
      + intros g c Hc Nc. unfold hop_part. cbn [fst snd].
        destruct (Nat.eqb_spec (fst c) a) as [E1|N1]; [destruct (Nat.eqb_spec (snd c) b) as [E2|N2]|]; cbn [andb].
        * exfalso. destruct c as [x y]. cbn [fst snd] in *. subst. rewrite (Hu g Hc) in Nc. auto.
        * destruct (Nat.eqb_spec (fst c) b); [congruence|]. cbn [andb]. ring.
        * destruct (Nat.eqb_spec (fst c) b) as [E3|]; [destruct (Nat.eqb_spec (snd c) a) as [E4|]|]; cbn [andb]; try ring.
          exfalso. destruct c as [x y]. cbn [fst snd] in *. subst. exact (Hr g Hc).
    - destruct (Nat.eqb_spec b a) as [E|_]; [congruence|]. rewrite ksum_nil, S.
      + cbn [fst snd]. unfold hop_part. cbn [fst snd]. rewrite !Nat.eqb_refl, HM. cbn [andb].
        destruct (Nat.eqb_spec a b) as [|_]; [contradiction|]. cbn [andb]. ring.
      + intros g c Hc Nc. unfold hop_part. cbn [fst snd].
        destruct (Nat.eqb_spec (fst c) a) as [E1|N1]; [destruct (Nat.eqb_spec (snd c) b) as [E2|N2]|]; cbn [andb].
        * exfalso. destruct c as [x y]. cbn [fst snd] in *. subst. rewrite (Hu g Hc) in Nc. auto.
        * destruct (Nat.eqb_spec (fst c) b); [congruence|]. cbn [andb]. ring.
        * destruct (Nat.eqb_spec (fst c) b) as [E3|]; [destruct (Nat.eqb_spec (snd c) a) as [E4|]|]; cbn [andb]; try ring.
          exfalso. destruct c as [x y]. cbn [fst snd] in *. subst. exact (Hr g Hc).
  Qed.
End H.
