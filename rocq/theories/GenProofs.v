(* Generators of sites and hoppings: the effect on the system and on the Hamiltonian elements. *)
From Verif Require Import Base Rle RleProofs Blocks BlocksProofs TablesSpec TablesProofs Scalar Foundation Lattice Hamiltonian HamiltonianSpec HamFacts HamApi SystemMods ModsSpec ModsProofs ModsSystem WidenProofs.
From Coq Require Import Permutation.
Local Open Scope nat_scope.

Lemma rle_add_split : forall d id norb c, (exists d0 e, d = d0 ++ [e] /\ e_id e = id /\ rle_add d id norb c = d0 ++ [Elem (e_id e) (e_num e + c) (e_norb e)]) \/
  (rle_add d id norb c = d ++ [Elem id c norb] /\ forall d0 e, d = d0 ++ [e] -> e_id e <> id).
Proof.
  induction d as [|x d IH]; intros id norb c.
  - right. split; [reflexivity|]. intros d0 e E. destruct d0; discriminate.
  - destruct d as [|y d].
    + cbn [rle_add]. destruct (Nat.eqb_spec (e_id x) id) as [E|E].
      * left. exists [], x. auto.
      * right. split; [reflexivity|]. intros [|z d0] e Q; [injection Q as <-; auto|]. destruct d0; discriminate.
    + change (rle_add (x :: y :: d) id norb c) with (x :: rle_add (y :: d) id norb c).
      destruct (IH id norb c) as [(d0 & e & E1 & E2 & E3)|(E1 & E2)].
      * left. exists (x :: d0), e. rewrite E3, E1. auto.
      * right. rewrite E1. split; [reflexivity|]. intros [|z d0] e Q; [destruct d; discriminate|]. injection Q as -> Q. eapply E2; eauto.
Qed.

Lemma sortedP_snoc : forall l x, sortedP l -> (forall y, In y l -> y <= x) -> sortedP (l ++ [x]).
Proof.
  induction l as [|a l IH]; intros x S H; [cbn; split; [intros ? []|auto]|]. cbn [app sortedP] in *. destruct S as [S1 S2]. split.
  - intros y Hy. apply in_app_iff in Hy. destruct Hy as [Hy|[<-|[]]]; auto. apply H. left; auto.
  - apply IH; auto. intros y Hy. apply H. right; auto.
Qed.

Lemma sum_firstn_app : forall (l m : list (nat * nat)) k, k <= length l -> sum_list (map snd (firstn k (l ++ m))) = sum_list (map snd (firstn k l)).
Proof. intros l m k H. rewrite firstn_app. replace (k - length l) with 0 by lia. cbn. rewrite app_nil_r. reflexivity. Qed.

(** Bonds stored in a table after one block was replaced. *)
Lemma flat_upd : forall bl f b b' n, nth_error bl f = Some b ->
  Permutation (flat_map (fun fb : nat * list (nat * nat) => map (fun c => (fst fb, c)) (snd fb)) (combine (seq n (length bl)) (upd bl f b')) ++ map (pair (n + f)) b)
    (flat_map (fun fb => map (fun c => (fst fb, c)) (snd fb)) (combine (seq n (length bl)) bl) ++ map (pair (n + f)) b').
Proof.
  induction bl as [|x bl IH]; intros f b b' n E; [destruct f; discriminate|]. destruct f as [|f]; cbn in E.
  - injection E as ->. cbn [length seq upd combine flat_map fst snd]. rewrite Nat.add_0_r.
    set (t := flat_map _ _). change (map (fun c => (n, c)) b') with (map (pair n) b'). change (map (fun c => (n, c)) b) with (map (pair n) b).
    rewrite <- !app_assoc. rewrite (Permutation_app_comm t (map (pair n) b)), (Permutation_app_comm t (map (pair n) b')).
    rewrite !app_assoc. apply Permutation_app_tail. apply Permutation_app_comm.
  - cbn [length seq upd combine flat_map fst snd]. rewrite <- !app_assoc. apply Permutation_app_head.
    replace (n + S f) with (S n + f) by lia. apply IH; auto.
Qed.

Lemma coo_dec : forall a b : nat * nat, {a = b} + {a <> b}.
Proof. repeat decide equality. Defined.

Section Gen.
  Variable R : scalar.
  Add Ring Rgen : (k_ring R).
  Variable P : Type.
  Variable reg hreg : list (name * mat R).
  Variable s : sysdata P P.
  Notation sys := (hsys_of reg hreg s).
  Hypothesis W : wf_hsys sys.
  Hypothesis HV : sd_valid s = [].
  Notation d := (sd_subs s).
  Local Open Scope k_scope.

  Section Sites.
    Variable n : name.
    Variable e : mat R.
    Variable make : sysdata P P -> outcome (list P).
    Variable ps : list P.
    Variable id : nat.
    Hypothesis HM : make s = Ok ps.
    Hypothesis HI : reg_id reg n = Ok id.
    Hypothesis HE : snd (reg_entry reg id) = e.
    Hypothesis H0 : (0 < m_rows e)%nat.
    Hypothesis Hsq : m_cols e = m_rows e.
    Hypothesis Hge : forall b, In b d -> (e_norb b <= m_rows e)%nat.

    Definition grown : sysdata P P := SysData (sd_pos s ++ ps) (rle_add d id (m_rows e) (length ps)) (hb_add_sites (sd_hops s) (length ps)) (sd_bounds s) (sd_valid s).
    Notation sys' := (hsys_of reg hreg grown).
    Notation d' := (sd_subs grown).

    Lemma grow_run : apply_system reg hreg s (SiteGen n e make) = Ok grown.
    Proof. cbn [apply_system]. unfold remove_invalid. rewrite HV. cbn [obind]. rewrite HM. cbn [obind]. rewrite HI. reflexivity. Qed.

    Lemma id_lt : (id < length reg)%nat.
    Proof. destruct (reg_id_some reg n id HI) as (x & E & _). apply nth_error_Some. congruence. Qed.

    Lemma grow_labels : labels d' = (labels d ++ repeat (id, m_rows e) (length ps))%list.
    Proof.
      unfold grown. cbn [sd_subs]. destruct (rle_add_split d id (m_rows e) (length ps)) as [(d0 & x & E1 & E2 & ->)|(-> & _)].
      - rewrite E1. unfold labels. rewrite !flat_map_app. cbn [flat_map]. rewrite !app_nil_r, <- app_assoc. f_equal. cbn [e_id e_num e_norb].
        rewrite repeat_app. f_equal. f_equal. f_equal; auto. destruct W as (_ & _ & W3 & _). destruct (W3 x) as (_ & _ & M & _).
        { cbn [hsys_of hs_subs]. rewrite E1. apply in_app_iff. right. left. reflexivity. }
        cbn [hsys_of hs_site] in M. rewrite E2, HE in M. auto.
      - unfold labels. rewrite flat_map_app. cbn [flat_map]. rewrite app_nil_r. reflexivity.
    Qed.
    Lemma grow_size : rle_size d' = (rle_size d + length ps)%nat.
    Proof. rewrite !rle_size_labels, grow_labels, app_length, repeat_length. reflexivity. Qed.
    Lemma grow_old : forall a, (a < rle_size d)%nat -> nth a (site_list d') (0, 0)%nat = nth a (site_list d) (0, 0)%nat.
    Proof. intros a H. change (site_list d') with (labels d'). rewrite grow_labels, app_nth1; auto. rewrite <- rle_size_labels. auto. Qed.
    Lemma grow_new : forall a, (rle_size d <= a < rle_size d + length ps)%nat -> nth a (site_list d') (0, 0)%nat = (id, m_rows e).
    Proof.
      intros a H. change (site_list d') with (labels d'). rewrite grow_labels, app_nth2; rewrite <- rle_size_labels; [|lia].
      rewrite nth_repeat_lt; auto. lia.
    Qed.
    Lemma grow_norb : forall a, (a < rle_size d)%nat -> norb_at d' a = norb_at d a.
    Proof. intros a H. unfold norb_at. rewrite grow_old; auto. Qed.
    Lemma grow_row : forall a i, (a <= rle_size d)%nat -> row_of d' a i = row_of d a i.
    Proof.
      intros a i H. unfold row_of. change (site_list d') with (labels d'). rewrite grow_labels.
      rewrite sum_firstn_app; auto. rewrite <- rle_size_labels. auto.
    Qed.

    Lemma grow_wf : wf_hsys sys'.
    Proof.
      destruct W as (W1 & W2 & W3 & W4 & W5). cbn [hsys_of hs_pos hs_subs hs_site hs_hop hs_hops hs_bounds] in *.
      assert (WH : forall h, wf_hops sys h -> wf_hops sys' h).
      { intros h [A B]. split; [exact A|]. intros f c Hc. destruct (B f c Hc) as (B1 & B2 & B3 & B4).
        cbn [hsys_of hs_subs hs_hop] in *. rewrite grow_size. split; [lia|]. split; [lia|]. rewrite !grow_norb by auto. auto. }
      split; [cbn [hsys_of hs_pos hs_subs]; rewrite grow_size; unfold grown; cbn [sd_pos]; rewrite app_length; lia|].
      split; [|split; [|split]].
      - cbn [hsys_of hs_subs]. apply is_sorted_sortedP. apply is_sorted_sortedP in W2. unfold grown. cbn [sd_subs].
        destruct (rle_add_split d id (m_rows e) (length ps)) as [(d0 & x & E1 & E2 & ->)|(-> & _)].
        + unfold orbital_counts in *. rewrite E1 in W2. rewrite map_app in *. exact W2.
        + unfold orbital_counts in *. rewrite map_app. apply sortedP_snoc; auto. intros y Hy. apply in_map_iff in Hy. destruct Hy as (b & <- & Hb). cbn. auto.
      - intros x Hx. cbn [hsys_of hs_subs hs_site] in *. unfold grown in Hx. cbn [sd_subs] in Hx.
        destruct (rle_add_split d id (m_rows e) (length ps)) as [(d0 & y & E1 & E2 & E3)|(E3 & _)]; rewrite E3 in Hx; apply in_app_iff in Hx; destruct Hx as [Hx|[<-|[]]].
        + apply W3. rewrite E1. apply in_app_iff. auto.
        + cbn [e_norb e_id]. apply W3. rewrite E1. apply in_app_iff. right. left. reflexivity.
        + apply W3; auto.
        + cbn [e_norb e_id]. rewrite HE. split; auto. split; [apply id_lt|]. auto.
      - destruct W4 as [A B]. split; [exact A|]. intros f c Hc. apply (proj2 (WH (sd_hops s) (conj A B))). exact Hc.
      - intros b Hb. apply WH, W5. exact Hb.
    Qed.

    Variable nt : ntype R.
    Variable og : list (os_rule R P).
    Variable hg : list (hop_rule R P).
    Variable unshift : P -> P -> P.
    Variable phase : P -> R.

    Lemma grow_hop : forall sh f c, (fst c < rle_size d)%nat -> (snd c < rle_size d)%nat -> hop_matrix nt sys' hg sh f c = hop_matrix nt sys hg sh f c.
    Proof.
      intros sh f c H1 H2. unfold hop_matrix. cbn [hsys_of hs_pos hs_hop grown sd_pos]. assert (L : length (sd_pos s) = rle_size d) by apply W.
      rewrite !nth_error_app1 by lia. reflexivity.
    Qed.
    Lemma grow_part : forall sh T c a i b j, (fst c < rle_size d)%nat -> (snd c < rle_size d)%nat ->
      hop_part nt (fun i j => T (m_at (hop_matrix nt sys' hg sh (fst (id, c)) c) i j)) c a i b j
      = hop_part nt (fun i j => T (m_at (hop_matrix nt sys hg sh (fst (id, c)) c) i j)) c a i b j.
    Proof. intros. unfold hop_part. rewrite grow_hop by auto. reflexivity. Qed.

    Lemma grow_element_old : forall a i b j, (a < rle_size d)%nat -> (b < rle_size d)%nat ->
      element nt sys' og hg unshift phase a i b j = element nt sys og hg unshift phase a i b j.
    Proof.
      intros a i b j Ha Hb. assert (L : length (sd_pos s) = rle_size d) by apply W.
      assert (IN : forall h f c, wf_hops sys h -> In (f, c) (stored h) -> (fst c < rle_size d)%nat /\ (snd c < rle_size d)%nat).
      { intros h f c [_ B] H. destruct (B f c H) as (B1 & B2 & _). auto. }
      unfold element. f_equal; [f_equal|].
      - destruct (a =? b)%nat; auto. f_equal. unfold site_matrix. cbn [hsys_of hs_site hs_subs hs_pos]. rewrite grow_old by auto.
        cbn [grown sd_pos]. rewrite nth_error_app1 by lia. reflexivity.
      - change (stored (hs_hops sys')) with (stored (hs_hops sys)). apply ksum_ext. intros [f c] H.
        destruct (IN _ _ _ (proj1 (proj2 (proj2 (proj2 W)))) H) as [H1 H2]. cbn [fst snd]. unfold hop_part. rewrite grow_hop by auto. reflexivity.
      - change (hs_bounds sys') with (hs_bounds sys). apply ksum_ext. intros b0 Hb0. apply ksum_ext. intros [f c] H.
        destruct (IN _ _ _ (proj2 (proj2 (proj2 (proj2 W))) b0 Hb0) H) as [H1 H2]. cbn [fst snd]. unfold hop_part. rewrite grow_hop by auto. reflexivity.
    Qed.

    Lemma grow_element_new : forall a i b j, (a < rle_size d + length ps)%nat -> (b < rle_size d + length ps)%nat ->
      (rle_size d <= a \/ rle_size d <= b)%nat -> nt_conj nt k0 = k0 ->
      element nt sys' og hg unshift phase a i b j
      = match nth_error ps (a - rle_size d) with
        | Some p => if (a =? b)%nat then m_at (fold_left (fun A g => g n p A) og (cast_mat nt e)) i j else k0
        | None => k0 end.
    Proof.
      intros a i b j Ha Hb Hab N0. assert (L : length (sd_pos s) = rle_size d) by apply W.
      assert (IN : forall h f c, wf_hops sys h -> In (f, c) (stored h) -> (fst c < rle_size d)%nat /\ (snd c < rle_size d)%nat).
      { intros h f c [_ B] H. destruct (B f c H) as (B1 & B2 & _). auto. }
      assert (HP : forall T c, (fst c < rle_size d)%nat -> (snd c < rle_size d)%nat -> hop_part nt T c a i b j = k0).
      { intros T c H1 H2. unfold hop_part.
        destruct (Nat.eqb_spec (fst c) a), (Nat.eqb_spec (snd c) b), (Nat.eqb_spec (fst c) b), (Nat.eqb_spec (snd c) a); cbn [andb]; try lia; ring. }
      unfold element. rewrite (ksum_0 R _ (stored (hs_hops sys'))), (ksum_0 R _ (hs_bounds sys')).
      - destruct (Nat.eqb_spec a b) as [->|NE].
        + assert (rle_size d <= b)%nat by lia. destruct (nth_error ps (b - rle_size d)) as [p|] eqn:EP; [|apply nth_error_None in EP; lia].
          unfold site_matrix. cbn [hsys_of hs_site hs_subs hs_pos]. rewrite grow_new by lia. cbn [grown sd_pos fst].
          rewrite nth_error_app2 by lia. rewrite L, EP. rewrite HE.
          assert (fst (reg_entry reg id) = n) as ->.
          { destruct (reg_id_some reg n id HI) as (x & E & _). unfold reg_entry. rewrite (nth_error_nth _ _ _ E). reflexivity. }
          ring.
        + destruct (nth_error ps (a - rle_size d)); ring.
      - intros b0 Hb0. apply ksum_0. intros [f c] H. apply HP; eapply (IN _ _ _ (proj2 (proj2 (proj2 (proj2 W))) b0 Hb0)); exact H.
      - intros [f c] H. apply HP; eapply (IN _ _ _ (proj1 (proj2 (proj2 (proj2 W))))); exact H.
    Qed.
  End Sites.

  Section Hops.
    Variable n : name.
    Variable e : mat R.
    Variable make : sysdata P P -> outcome (list nat * list nat).
    Variable rows cols : list nat.
    Variable f : nat.
    Variable b0 : list (nat * nat).
    Hypothesis HM : make s = Ok (rows, cols).
    Hypothesis HI : reg_id hreg n = Ok f.
    Hypothesis HE : snd (reg_entry hreg f) = e.
    Hypothesis HL : length rows = length cols.
    Hypothesis HF : nth_error (hb_blocks (sd_hops s)) f = Some b0.
    Hypothesis HN : NoDup b0.

    Definition wanted (c : nat * nat) : Prop := (fst c <= snd c)%nat /\ requested rows cols (fst c) (snd c).

    Lemma bond_run : exists h' news, hb_append (sd_hops s) f rows cols = Ok h' /\
      apply_system reg hreg s (HopGen n e make) = Ok (SysData (sd_pos s) d h' (sd_bounds s) []) /\
      length (hb_blocks h') = length (hb_blocks (sd_hops s)) /\ hb_n h' = hb_n (sd_hops s) /\
      NoDup news /\ (forall c, In c news <-> wanted c /\ ~ In c b0) /\
      Permutation (stored h') (stored (sd_hops s) ++ map (pair f) news)%list /\
      nth_error (hb_blocks h') f <> None /\ (forall b', nth_error (hb_blocks h') f = Some b' -> NoDup b') /\
      (forall g, g <> f -> nth_error (hb_blocks h') g = nth_error (hb_blocks (sd_hops s)) g).
    Proof.
      destruct (append_exact (sd_hops s) f rows cols b0 HL HF) as (h' & b' & E & Eb & ND & OTH & MEM).
      assert (EU : exists x, h' = HB (hb_n (sd_hops s)) (upd (hb_blocks (sd_hops s)) f x)).
      { unfold hb_append in E. rewrite HL, Nat.eqb_refl in E. cbn [negb] in E. unfold aget in E. rewrite HF in E. cbn [obind] in E. injection E as <-. eauto. }
      destruct EU as (x & EU). subst h'. cbn [hb_blocks hb_n] in *.
      assert (Fl : (f < length (hb_blocks (sd_hops s)))%nat) by (apply nth_error_Some; congruence).
      rewrite nth_error_upd_eq in Eb by auto. injection Eb as ->.
      pose (dec := fun c => if in_dec (coo_dec) c b0 then false else true).
      exists (HB (hb_n (sd_hops s)) (upd (hb_blocks (sd_hops s)) f b')), (filter dec b').
      assert (MN : forall c, In c (filter dec b') <-> wanted c /\ ~ In c b0).
      { intros c. rewrite filter_In. unfold dec. destruct (in_dec _ c b0) as [I|I].
        - split; [intros [_ ?]; discriminate|tauto].
        - destruct c as [i j]. rewrite MEM. unfold wanted. cbn [fst snd]. tauto. }
      split; [exact E|]. split.
      { cbn [apply_system]. unfold remove_invalid. rewrite HV. cbn [obind]. rewrite HM. cbn [obind fst snd]. rewrite HI. cbn [obind]. rewrite E. cbn [obind]. rewrite HV. reflexivity. }
      cbn [hb_blocks hb_n]. split; [apply upd_length|]. split; [reflexivity|]. split; [apply NoDup_filter; auto|]. split; [exact MN|]. split.
      - pose proof (flat_upd (hb_blocks (sd_hops s)) f b0 b' 0 HF) as Q. cbn [plus] in Q. unfold stored. cbn [hb_blocks]. rewrite upd_length.
        apply (Permutation_app_inv_r (map (pair f) b0)). etransitivity; [exact Q|]. rewrite <- app_assoc. apply Permutation_app_head.
        rewrite <- map_app. apply Permutation_map. apply NoDup_Permutation; auto.
        + apply NoDup_app_intro; auto; [apply NoDup_filter; auto|]. intros c H1 H2. apply MN in H1. tauto.
        + intros [i j]. rewrite in_app_iff, MN, MEM. unfold wanted. cbn [fst snd].
          destruct (in_dec (coo_dec) (i, j) b0); tauto.
      - split; [rewrite nth_error_upd_eq by auto; discriminate|]. split; [|exact OTH].
        intros b1 E1. rewrite nth_error_upd_eq in E1 by auto. injection E1 as <-. auto.
    Qed.

    (** Requested bonds connect existing sites with the right numbers of orbitals. *)
    Hypothesis HR : forall c, wanted c -> (snd c < rle_size d)%nat /\ m_rows e = norb_at d (fst c) /\ m_cols e = norb_at d (snd c).

    Lemma bond_wf : forall h' news, length (hb_blocks h') = length (hb_blocks (sd_hops s)) ->
      (forall c, In c news <-> wanted c /\ ~ In c b0) -> Permutation (stored h') (stored (sd_hops s) ++ map (pair f) news)%list ->
      wf_hsys (hsys_of reg hreg (SysData (sd_pos s) d h' (sd_bounds s) [])).
    Proof.
      intros h' news L MN PM. destruct W as (W1 & W2 & W3 & W4 & W5). cbn [hsys_of hs_pos hs_subs hs_site hs_hop hs_hops hs_bounds sd_pos sd_subs sd_hops sd_bounds] in *.
      split; [exact W1|]. split; [exact W2|]. split; [exact W3|]. split; [|exact W5].
      destruct W4 as [A B]. split; [cbn [hsys_of hs_hop hs_hops sd_hops] in *; rewrite L; exact A|]. intros g c Hc.
      apply (Permutation_in _ PM) in Hc. apply in_app_iff in Hc. destruct Hc as [Hc|Hc]; [apply B; exact Hc|].
      apply in_map_iff in Hc. destruct Hc as (c' & Q & Hc). injection Q as <- <-. apply MN in Hc. destruct Hc as [Hc _].
      destruct (HR c' Hc) as (X1 & X2 & X3). cbn [hsys_of hs_subs hs_hop]. cbn [sd_subs]. rewrite HE. destruct Hc as [Hc _]. repeat split; auto. lia.
    Qed.

    Lemma bond_element : forall h' news nt og hg unshift phase a i b j,
      Permutation (stored h') (stored (sd_hops s) ++ map (pair f) news)%list ->
      element nt (hsys_of reg hreg (SysData (sd_pos s) d h' (sd_bounds s) [])) og hg unshift phase a i b j
      = element nt sys og hg unshift phase a i b j
        + ksum (fun c => hop_part nt (m_at (hop_matrix nt sys hg (fun p => p) f c)) c a i b j) news.
    Proof.
      intros h' news nt og hg unshift phase a i b j PM. unfold element. cbn [hsys_of hs_hops hs_bounds hs_pos hs_hop sd_hops sd_bounds sd_pos].
      rewrite (ksum_perm R _ _ _ PM), ksum_app, ksum_map. cbn [fst snd].
      match goal with |- (?x + (?y + ?z)) + ?t = ((?x' + ?y') + ?t') + ?z' => change x' with x; change y' with y; change t' with t; change z' with z end.
      ring.
    Qed.
  End Hops.
End Gen.
