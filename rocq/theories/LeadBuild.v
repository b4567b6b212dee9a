(* The structure built for a lead from its contact sites. *)
From Verif Require Import Base Rle RleProofs Blocks BlocksProofs Foundation Scalar Lattice LatticeSpec IndexProofs PositionProofs DanglingGraph DanglingProofs FinalProofs FoundationSpec FoundationFacts PopulateFacts BoundaryProofs Leads LeadsSpec LeadRows LeadFill LeadAttach.
From Coq Require Import Permutation.

(** Place of [x] in a list. *)
Fixpoint index_of (x : nat) (l : list nat) : option nat :=
  match l with [] => None | y :: t => if y =? x then Some 0 else option_map S (index_of x t) end.

Lemma index_of_none : forall x l, ~ In x l -> index_of x l = None.
Proof.
  intros x l. induction l as [|y l IH]; intros H; [reflexivity|]. cbn [index_of]. destruct (Nat.eqb_spec y x) as [->|N]; [exfalso; apply H; left; auto|].
  rewrite IH; [reflexivity|]. intros I. apply H. right. auto.
Qed.

Lemma index_of_nth : forall l j x, NoDup l -> (index_of x l = Some j <-> nth_error l j = Some x).
Proof.
  induction l as [|y l IH]; intros j x ND; [destruct j; split; discriminate|]. inversion ND as [|? ? N1 N2]; subst. cbn [index_of].
  destruct (Nat.eqb_spec y x) as [->|N].
  - split; [intros [= <-]; reflexivity|]. destruct j; [reflexivity|]. cbn. intros H. exfalso. apply N1. eapply nth_error_In; eauto.
  - destruct j; cbn [nth_error].
    + split; [destruct (index_of x l); discriminate|congruence].
    + rewrite <- IH by auto. destruct (index_of x l); cbn [option_map]; split; congruence.
Qed.

Lemma find_index_ok : forall (g : nat -> Z) qs x w n, (forall q, In q qs -> (g q =? x)%Z = (q =? w)) ->
  find_index (map g qs) x n = match index_of w qs with Some j => (n + Z.of_nat j)%Z | None => (-1)%Z end.
Proof.
  intros g qs x w. induction qs as [|q qs IH]; intros n H; [reflexivity|]. cbn [map find_index index_of].
  rewrite H by (left; auto). destruct (q =? w); [cbn; lia|]. rewrite IH by (intros; apply H; right; auto).
  destruct (index_of w qs); cbn [option_map]; [lia|reflexivity].
Qed.

Section Build.
  Context {P : Type}.
  Variable size : idx3.
  Variable uc : list (usite P).
  Variable nfam : nat.
  Hypothesis Hsize : positive_block size.
  Hypothesis Huc : uc_ok uc.
  Hypothesis Hfam : forall u h, In u uc -> In h (u_hops u) -> h_fam h < nfam.
  Variable norb_of : nat -> nat.
  Hypothesis Hnorb : forall u, In u uc -> u_norb u = norb_of (u_alias u).
  Hypothesis Hcontig : forall a b c ua ub uc', a <= b -> b <= c ->
    nth_error uc a = Some ua -> nth_error uc b = Some ub -> nth_error uc c = Some uc' ->
    u_alias ua = u_alias uc' -> u_alias ub = u_alias ua.
  Hypothesis Hsorted : forall a b ua ub, a <= b -> nth_error uc a = Some ua -> nth_error uc b = Some ub -> u_norb ua <= u_norb ub.
  Variable valid : list bool.
  Notation N := (num_block_sites size (length uc)).
  Hypothesis Hvalid : length valid = N.
  Variable fin : list Z.
  Hypothesis Hfin_len : length fin = N.
  Hypothesis Hfin : forall i, i < N -> nth i fin 0%Z = if nth i valid false then Z.of_nat (number valid i) else (-1)%Z.
  Variable fpos : list P.
  Hypothesis Hpos : length fpos = N.
  Variable padd : P -> P -> P.
  Variable dflt shift : P.

  (** The contact sites, in the order of the slice. *)
  Variable ss : list site.
  Definition fl (s : site) : nat := Z.to_nat (s_flat s).
  Definition qs : list nat := map fl ss.
  Hypothesis Hgood : forall s, In s ss -> good_site size uc s.
  Hypothesis Hlive : forall s, In s ss -> nth (fl s) valid false = true.
  Hypothesis Hincr : forall i j s t, i < j -> nth_error ss i = Some s -> nth_error ss j = Some t -> fl s < fl t.

  Definition indices : list Z := map (fun q => Z.of_nat (number valid q)) qs.

  Lemma qs_nodup : NoDup qs.
  Proof.
    apply NoDup_nth_error. intros i j Hi E. unfold qs in *. rewrite map_length in Hi. rewrite !nth_error_map in E.
    destruct (nth_error ss i) as [s|] eqn:Ei; [|apply nth_error_None in Ei; lia].
    destruct (nth_error ss j) as [t|] eqn:Ej; [|discriminate]. cbn in E. injection E as E.
    destruct (Nat.lt_trichotomy i j) as [H|[H|H]]; [|exact H|].
    - pose proof (Hincr i j s t H Ei Ej). lia.
    - pose proof (Hincr j i t s H Ej Ei). lia.
  Qed.

  Lemma fl_lt : forall s, In s ss -> fl s < N.
  Proof. intros s Hs. destruct (good_bs size uc Hsize s (Hgood s Hs)) as (_ & _ & B). exact B. Qed.

  Lemma fin_site : forall s, In s ss -> agetZ fin (s_flat s) = Ok (Z.of_nat (number valid (fl s))).
  Proof.
    intros s Hs. destruct (good_bs size uc Hsize s (Hgood s Hs)) as (_ & E & B). rewrite E.
    rewrite (fin_at size uc valid Hvalid fin Hfin_len Hfin) by exact B. fold (fl s). rewrite (Hlive s Hs). reflexivity.
  Qed.

  Lemma indices_ok : osequence (fun s => agetZ fin (s_flat s)) ss = Ok indices.
  Proof. unfold indices, qs. rewrite map_map. apply osequence_ok. apply fin_site. Qed.

  Lemma lead_index_ok : forall w, w < N -> lead_index indices (if nth w valid false then Z.of_nat (number valid w) else (-1)%Z)
    = match index_of w qs with Some j => Z.of_nat j | None => (-1)%Z end.
  Proof.
    intros w Hw. unfold lead_index, indices. rewrite (find_index_ok _ qs _ w); [destruct (index_of w qs); [lia|reflexivity]|].
    intros q Hq. assert (LQ : nth q valid false = true).
    { unfold qs in Hq. apply in_map_iff in Hq. destruct Hq as (s & <- & Hs). apply Hlive; auto. }
    destruct (nth w valid false) eqn:EW.
    - destruct (Nat.eqb_spec q w) as [->|Ne]; [apply Z.eqb_refl|]. apply Z.eqb_neq. intros E. apply Ne. apply (number_inj valid); auto. lia.
    - destruct (Nat.eqb_spec q w) as [->|Ne]; [congruence|]. apply Z.eqb_neq. lia.
  Qed.

  Definition pair_in (all : bool) (f j : nat) (x : site * hop) : list coo :=
    if (all || negb (h_conj (snd x))) && (h_fam (snd x) =? f)
    then match index_of (fl (fst x)) qs with Some j' => [(j, j')] | None => [] end else [].

  Lemma add_lead_hops_ok : forall all l j hb, length (hb_blocks hb) = nfam ->
    (forall x, In x l -> (0 <= s_flat (fst x) < Z.of_nat N)%Z /\ h_fam (snd x) < nfam) ->
    exists hb', add_lead_hops all fin indices (Z.of_nat j) l hb = Ok hb' /\ hb_n hb' = hb_n hb /\ length (hb_blocks hb') = nfam /\
      forall f, f < nfam -> nth f (hb_blocks hb') [] = nth f (hb_blocks hb) [] ++ flat_map (pair_in all f j) l.
  Proof.
    intros all. induction l as [|[s h] l IH]; intros j hb Hb Hl; unfold add_lead_hops; cbn [ofold].
    - exists hb. repeat split; auto. intros. cbn. rewrite app_nil_r. reflexivity.
    - destruct (Hl _ (or_introl eq_refl)) as [B Ff]. cbn [fst snd] in *.
      assert (AG : agetZ fin (s_flat s) = Ok (if nth (fl s) valid false then Z.of_nat (number valid (fl s)) else (-1)%Z)).
      { unfold fl. rewrite <- (Z2Nat.id (s_flat s)) at 1 by lia. apply (fin_at size uc valid Hvalid fin Hfin_len Hfin). lia. }
      rewrite AG. cbn [obind]. rewrite lead_index_ok by (unfold fl; lia).
      assert (Hl' : forall x, In x l -> (0 <= s_flat (fst x) < Z.of_nat N)%Z /\ h_fam (snd x) < nfam) by (intros x Hx; apply Hl; right; exact Hx).
      destruct (index_of (fl s) qs) as [j'|] eqn:EI.
      + destruct (Z.leb_spec 0 (Z.of_nat j')); [|lia]. cbn [andb].
        destruct (all || negb (h_conj h)) eqn:EC.
        * unfold hb_add. rewrite (aget_ok (hb_blocks hb) (h_fam h) []) by lia. cbn [obind]. rewrite !Nat2Z.id.
          edestruct (IH j (HB (hb_n hb) (upd (hb_blocks hb) (h_fam h) (nth (h_fam h) (hb_blocks hb) [] ++ [(j, j')])))) as (hb' & E & A & B' & C); [cbn [hb_blocks]; rewrite upd_length; exact Hb|exact Hl'|].
          exists hb'. unfold add_lead_hops in E. rewrite Nat2Z.id in E. split; [exact E|]. split; [exact A|]. split; [exact B'|]. intros f Hf. rewrite C by auto. cbn [hb_blocks flat_map].
          rewrite nth_upd by lia. unfold pair_in at 2. cbn [fst snd]. rewrite EC, EI. cbn [andb].
          destruct (Nat.eqb_spec (h_fam h) f); [subst; rewrite <- app_assoc; reflexivity|reflexivity].
        * cbn [obind]. destruct (IH j hb Hb Hl') as (hb' & E & A & B' & C).
          exists hb'. split; [exact E|]. split; [exact A|]. split; [exact B'|]. intros f Hf. rewrite C by auto. cbn [flat_map].
          unfold pair_in at 2. cbn [fst snd]. rewrite EC. cbn. reflexivity.
      + cbn [Z.leb Z.compare andb obind]. destruct (IH j hb Hb Hl') as (hb' & E & A & B' & C).
        exists hb'. split; [exact E|]. split; [exact A|]. split; [exact B'|]. intros f Hf. rewrite C by auto. cbn [flat_map].
        unfold pair_in at 2. cbn [fst snd]. rewrite EI. destruct (_ && _); reflexivity.
  Qed.

  Lemma nb_site : forall s T, In s ss -> neighbors size uc (add3 (s_idx s) T) (s_sub s) = Ok (moved_nb size uc T (fl s)).
  Proof.
    intros s T Hs. destruct (good_bs size uc Hsize s (Hgood s Hs)) as (B1 & B2 & B3).
    unfold neighbors, moved_nb. fold (fl s) in B1. rewrite B1. cbn [fst snd]. destruct (Hgood s Hs) as (i & a & Hi & Ha & E1 & E2 & E3). rewrite E1, E2.
    destruct (Z.ltb_spec (Z.of_nat a) 0); [lia|]. rewrite Nat2Z.id. unfold aget.
    destruct (nth_error uc a) as [u|] eqn:E; [|apply nth_error_None in E; lia]. reflexivity.
  Qed.

  Lemma site_index : forall j s, nth_error ss j = Some s -> lead_index indices (Z.of_nat (number valid (fl s))) = Z.of_nat j.
  Proof.
    intros j s Hj. assert (Hs : In s ss) by (eapply nth_error_In; eauto).
    pose proof (lead_index_ok (fl s) (fl_lt s Hs)) as X. rewrite (Hlive s Hs) in X. rewrite X.
    assert (EI : index_of (fl s) qs = Some j).
    { apply index_of_nth; [apply qs_nodup|]. unfold qs. rewrite nth_error_map, Hj. reflexivity. }
    rewrite EI. reflexivity.
  Qed.

  Definition hops_of (all : bool) (T : idx3) (f : nat) (k : nat) (l : list site) : list coo :=
    flat_map (fun js => flat_map (pair_in all f (fst js)) (moved_nb size uc T (fl (snd js)))) (combine (seq k (length l)) l).

  Lemma hops_of_snoc : forall all T f l s, hops_of all T f 0 (l ++ [s]) = hops_of all T f 0 l ++ flat_map (pair_in all f (length l)) (moved_nb size uc T (fl s)).
  Proof.
    intros all T f l s. unfold hops_of. rewrite app_length. cbn [length]. rewrite seq_app.
    assert (E : forall {A B} (l1 : list A) (l2 : list B) m1 m2, length l1 = length l2 -> combine (l1 ++ m1) (l2 ++ m2) = combine l1 l2 ++ combine m1 m2).
    { clear. intros A B l1. induction l1 as [|x l1 IH]; intros [|y l2] m1 m2 H; try discriminate; [reflexivity|]. cbn. rewrite IH by (cbn in H; lia). reflexivity. }
    rewrite E by (rewrite seq_length; reflexivity). rewrite flat_map_app. cbn [seq combine flat_map fst snd Nat.add]. rewrite app_nil_r. reflexivity.
  Qed.

  (* ---------------------------------------------------------------- the lead's own cell *)
  Definition gpos (s : site) : P := padd (nth (fl s) fpos dflt) shift.
  Definition inv (pre post : list site) (st : list P * rle * hblocks) : Prop :=
    fst (fst st) = map gpos pre ++ repeat dflt (length post) /\
    labels (snd (fst st)) = map (fun s => label_of size uc (fl s)) pre /\
    ((pre = [] /\ snd (fst st) = []) \/ exists p v, pre = p ++ [v] /\ table_ok uc (snd (fst st)) (sub_of size (fl v))) /\
    hb_n (snd st) = length ss /\ length (hb_blocks (snd st)) = nfam /\
    (forall f, f < nfam -> nth f (hb_blocks (snd st)) [] = hops_of false zero3 f 0 pre).

  Lemma nbs' : forall A (x : list A), length x = N -> length x = Z.to_nat (f_size size (length uc)).
  Proof. intros A x H. rewrite nbs_eq by auto. exact H. Qed.

  Lemma sub_of_site : forall s, In s ss -> sub_of size (fl s) = Z.to_nat (s_sub s).
  Proof.
    intros s Hs. destruct (good_bs size uc Hsize s (Hgood s Hs)) as (B1 & _ & _). fold (fl s) in B1. 
    change (sub_of size (fl s)) with (snd (bs_of size (fl s))). rewrite B1. reflexivity.
  Qed.

  Lemma lead_step_ok : forall pre s post st, ss = pre ++ s :: post -> inv pre (s :: post) st ->
    exists st', lead_step size uc fpos padd fin indices shift st s = Ok st' /\ inv (pre ++ [s]) post st'.
  Proof.
    intros pre s post [[pos d] hb] Ess (I1 & I2 & I3 & I4 & I5 & I6). cbn [fst snd] in *.
    assert (Hs : In s ss) by (rewrite Ess; apply in_app_iff; right; left; auto).
    assert (Hj : nth_error ss (length pre) = Some s) by (rewrite Ess, nth_error_app2, Nat.sub_diag by lia; reflexivity).
    unfold lead_step. rewrite fin_site by auto. cbn [obind fst snd]. rewrite (site_index _ _ Hj).
    pose proof (fl_lt s Hs) as LT. destruct (good_bs size uc Hsize s (Hgood s Hs)) as (B1 & B2 & _). fold (fl s) in B1, B2.
    rewrite B2. rewrite agetZ_nat, (aget_ok fpos _ dflt) by lia. cbn [obind].
    assert (Lp : length pos = length pre + S (length post)) by (rewrite I1, app_length, map_length, repeat_length; reflexivity).
    rewrite asetZ_nat, (aget_ok pos (length pre) dflt) by lia. cbn [obind].
    destruct (Hgood s Hs) as (i & a & Hi & Ha & E1 & E2 & E3).
    destruct (nth_error uc a) as [u|] eqn:Eu; [|apply nth_error_None in Eu; lia].
    assert (EA : agetZ uc (s_sub s) = Ok u).
    { rewrite E2, agetZ_nat. unfold aget. rewrite Eu. reflexivity. }
    rewrite EA. cbn [obind].
    assert (NB : neighbors size uc (s_idx s) (s_sub s) = Ok (moved_nb size uc zero3 (fl s))).
    { rewrite <- (nb_site s zero3 Hs). f_equal. destruct (s_idx s) as [x y z]. unfold add3, zero3. cbn [ix iy iz]. rewrite !Z.add_0_r. reflexivity. }
    rewrite NB. cbn [obind].
    destruct (add_lead_hops_ok false (moved_nb size uc zero3 (fl s)) (length pre) hb I5) as (hb' & E & A & B & C).
    { intros x Hx. eapply (moved_range size uc nfam Hsize Huc Hfam valid Hvalid fin Hfin_len); eauto. }
    rewrite E. cbn [obind]. eexists. split; [reflexivity|]. unfold inv. cbn [fst snd].
    assert (SUB : sub_of size (fl s) = a) by (rewrite sub_of_site by auto; rewrite E2; apply Nat2Z.id).
    split; [|split; [|split; [|split; [|split]]]].
    - rewrite I1, map_app. cbn [map length]. rewrite <- (map_length gpos pre) at 1. rewrite upd_boundary. reflexivity.
    - rewrite labels_add.
      + rewrite I2, map_app. cbn [map repeat]. unfold label_of at 3. rewrite SUB, Eu. reflexivity.
      + intros e d' Ed Ee. destruct I3 as [[_ ->]|(p & v & Ep & TO)]; [destruct d'; discriminate|].
        pose proof (to_from _ _ _ TO) as F. rewrite Forall_forall in F.
        destruct (F e) as (a' & ua & A1 & A2 & A3 & A4); [rewrite Ed; apply in_app_iff; right; left; auto|].
        rewrite A4. rewrite (Hnorb ua) by (eapply nth_error_In; eauto).
        rewrite (Hnorb u) by (eapply nth_error_In; eauto). congruence.
    - right. exists pre, s. split; [reflexivity|]. rewrite SUB. destruct I3 as [[_ ->]|(p & v & Ep & TO)].
      + apply (table_ok_add size uc valid (nbs' _ _ Hvalid) Hcontig Hsorted fpos (nbs' _ _ Hpos) fin (nbs' _ _ Hfin_len) [] a); auto.
        constructor; [constructor|constructor|exact I|]. intros e d' us E'. destruct d'; discriminate.
      + assert (Hv : In v ss) by (rewrite Ess, Ep; apply in_app_iff; left; apply in_app_iff; right; left; auto).
        apply (table_ok_add size uc valid (nbs' _ _ Hvalid) Hcontig Hsorted fpos (nbs' _ _ Hpos) fin (nbs' _ _ Hfin_len) d (sub_of size (fl v))); auto.
        * rewrite <- SUB. apply (sub_of_mono size uc Hsize valid (nbs' _ _ Hvalid) fpos (nbs' _ _ Hpos) fin (nbs' _ _ Hfin_len)).
          apply Nat.lt_le_incl. apply (Hincr (length p) (length pre)); auto.
          -- rewrite Ep, app_length. cbn. lia.
          -- rewrite Ess, Ep, <- app_assoc, nth_error_app2, Nat.sub_diag by lia. reflexivity.
        * rewrite sub_of_site by auto. destruct (Hgood v Hv) as (i' & a' & _ & Ha' & _ & E2' & _). rewrite E2', Nat2Z.id. exact Ha'.
    - congruence.
    - exact B.
    - intros f Hf. rewrite C, hops_of_snoc, I6 by auto. reflexivity.
  Qed.

  Lemma lead_loop : forall post pre st, ss = pre ++ post -> inv pre post st ->
    exists st', ofold (lead_step size uc fpos padd fin indices shift) post st = Ok st' /\ inv ss [] st'.
  Proof.
    induction post as [|s post IH]; intros pre st E I; cbn [ofold].
    - exists st. split; [reflexivity|]. rewrite app_nil_r in E. rewrite E at 1. exact I.
    - destruct (lead_step_ok pre s post st E I) as (st1 & E1 & I1). rewrite E1. cbn [obind].
      apply (IH (pre ++ [s])); [rewrite <- app_assoc; exact E|exact I1].
  Qed.

  Variable l : lead P.
  Lemma bound_loop : forall post pre hb, ss = pre ++ post -> length (hb_blocks hb) = nfam ->
    exists hb', ofold (lead_bound_step size uc l fin indices) post hb = Ok hb' /\ hb_n hb' = hb_n hb /\ length (hb_blocks hb') = nfam /\
      forall f, f < nfam -> nth f (hb_blocks hb) [] = hops_of true (unit3 (lead_axis l) (lead_sign l)) f 0 pre ->
        nth f (hb_blocks hb') [] = hops_of true (unit3 (lead_axis l) (lead_sign l)) f 0 ss.
  Proof.
    induction post as [|s post IH]; intros pre hb E Hb; cbn [ofold].
    - exists hb. rewrite app_nil_r in E. rewrite E. auto.
    - assert (Hs : In s ss) by (rewrite E; apply in_app_iff; right; left; auto).
      assert (Hj : nth_error ss (length pre) = Some s) by (rewrite E, nth_error_app2, Nat.sub_diag by lia; reflexivity).
      unfold lead_bound_step at 1. rewrite nb_site by auto. cbn [obind]. rewrite fin_site by auto. cbn [obind]. rewrite (site_index _ _ Hj).
      destruct (add_lead_hops_ok true (moved_nb size uc (unit3 (lead_axis l) (lead_sign l)) (fl s)) (length pre) hb Hb) as (h1 & E1 & N1 & L1 & F1).
      { intros x Hx. eapply (moved_range size uc nfam Hsize Huc Hfam valid Hvalid fin Hfin_len); eauto using fl_lt. }
      rewrite E1. cbn [obind]. destruct (IH (pre ++ [s]) h1) as (h2 & E2 & N2 & L2 & F2); [rewrite <- app_assoc; exact E|exact L1|].
      exists h2. split; [exact E2|]. split; [congruence|]. split; [exact L2|]. intros f Hf H. apply F2; auto. rewrite F1, H, hops_of_snoc by auto. reflexivity.
  Qed.

  Lemma structure_ok : exists d hb bd,
    obind (ofold (lead_step size uc fpos padd fin indices shift) ss (repeat dflt (length indices), [], hb_new (length indices) nfam)) (fun st =>
      if rle_verify (snd (fst st)) (length indices) then
        omap (fun bd => LeadStructure indices (fst (fst st)) (snd (fst st)) (snd st) bd)
          (ofold (lead_bound_step size uc l fin indices) ss (hb_new (length indices) nfam))
      else Throw) = Ok (LeadStructure indices (map gpos ss) d hb bd) /\
    rle_verify d (length ss) = true /\ labels d = map (fun s => label_of size uc (fl s)) ss /\
    Forall (fun e => exists a u, nth_error uc a = Some u /\ e_id e = u_alias u /\ e_norb e = u_norb u) d /\
    hb_n hb = length ss /\ length (hb_blocks hb) = nfam /\ hb_n bd = length ss /\ length (hb_blocks bd) = nfam /\
    (forall f, f < nfam -> nth f (hb_blocks hb) [] = hops_of false zero3 f 0 ss) /\
    (forall f, f < nfam -> nth f (hb_blocks bd) [] = hops_of true (unit3 (lead_axis l) (lead_sign l)) f 0 ss).
  Proof.
    assert (LI : length indices = length ss) by (unfold indices, qs; rewrite !map_length; reflexivity). rewrite LI.
    destruct (lead_loop ss [] (repeat dflt (length ss), [], hb_new (length ss) nfam) eq_refl) as ([[pos d] hb] & E & I1 & I2 & I3 & I4 & I5 & I6).
    { unfold inv, hb_new. cbn [fst snd hb_n hb_blocks]. split; [reflexivity|]. split; [reflexivity|]. split; [left; auto|]. split; [reflexivity|].
      split; [apply repeat_length|]. intros f Hf. cbn. apply nth_repeat_lt; auto. }
    cbn [fst snd] in *. cbn [repeat length] in I1. rewrite app_nil_r in I1.
    destruct (bound_loop ss [] (hb_new (length ss) nfam) eq_refl) as (bd & EB & N2 & L2 & F2); [apply repeat_length|].
    assert (VF : rle_verify d (length ss) = true).
    { unfold rle_verify. rewrite !andb_true_iff. split; [split|].
      + apply Nat.eqb_eq. rewrite rle_size_labels, I2. apply map_length.
      + apply Nat.eqb_eq. unfold num_distinct. destruct I3 as [[_ ->]|(p & v & _ & TO)]; [reflexivity|].
        rewrite nodup_fixed_point by (apply (to_nodup _ _ _ TO)). unfold alias_ids. apply map_length.
      + apply is_sorted_sortedP. destruct I3 as [[_ ->]|(p & v & _ & TO)]; [exact I|]. apply (to_sorted _ _ _ TO). }
    exists d, hb, bd. rewrite E. cbn [obind fst snd]. rewrite VF, EB, I1. split; [reflexivity|]. split; [reflexivity|]. split; [exact I2|].
    split.
    { destruct I3 as [[_ ->]|(p & v & _ & TO)]; [constructor|]. eapply Forall_impl; [|exact (to_from _ _ _ TO)].
      intros e (a & u & _ & A & B & C). exists a, u. auto. }
    split; [exact I4|]. split; [exact I5|]. split; [exact N2|]. split; [exact L2|]. split; [exact I6|].
    intros f Hf. apply F2; auto. cbn. apply nth_repeat_lt; auto.
  Qed.

  (* ---------------------------------------------------------------- membership in the tables *)
  Lemma in_moved : forall T v x, v < N -> In x (moved_nb size uc T v) <->
    exists u h, nth_error uc (snd (bs_of size v)) = Some u /\ In h (u_hops u) /\ snd x = h /\
      cell_of size (shifted_cell (shifted_cell (fst (bs_of size v)) T) (h_rel h)) /\
      fst x = mk_site size (shifted_cell (shifted_cell (fst (bs_of size v)) T) (h_rel h)) (Z.of_nat (h_to h)).
  Proof.
    intros T v x Hv. unfold moved_nb. destruct (nth_error uc (snd (bs_of size v))) as [u|] eqn:E.
    - rewrite in_map_iff. split.
      + intros (h & <- & Hh). apply filter_In in Hh. destruct Hh as [Hh HB]. apply in_block_spec in HB. exists u, h. cbn [fst snd].
        split; [reflexivity|]. split; [exact Hh|]. split; [reflexivity|]. split; [exact HB|reflexivity].
      + intros (u' & h & EU & Hh & E2 & HC & E1). injection EU as <-. exists h. destruct x as [x1 x2]. cbn [fst snd] in *. subst x2.
        split; [rewrite E1; reflexivity|]. apply filter_In. split; [exact Hh|]. apply in_block_spec. exact HC.
    - split; [intros []|]. intros (u & h & EU & _). discriminate.
  Qed.

  Definition nth_site (j : nat) (i : idx3) (a : nat) : Prop := exists s, nth_error ss j = Some s /\ s_idx s = i /\ s_sub s = Z.of_nat a.

  Lemma site_of_good : forall j i a, nth_site j i a -> cell_of size i /\ a < length uc /\ nth_error qs j = Some (place size i a) /\
    bs_of size (place size i a) = (i, a) /\ place size i a < N.
  Proof.
    intros j i a (s & Hj & E1 & E2). assert (Hs : In s ss) by (eapply nth_error_In; eauto).
    destruct (Hgood s Hs) as (i' & a' & Hi & Ha & F1 & F2 & F3). assert (a' = a) by lia. subst a'. assert (EI : i' = i) by congruence. rewrite EI in *.
    split; [exact Hi|]. split; [exact Ha|]. split.
    - unfold qs. rewrite nth_error_map, Hj. cbn. unfold fl. rewrite F3, Nat2Z.id. reflexivity.
    - split; [apply bs_of_place; auto|]. apply (place_bij size (length uc)); auto.
  Qed.

  Lemma hops_of_in : forall all T f p q, In (p, q) (hops_of all T f 0 ss) <->
    exists i a u h, nth_site p i a /\ nth_error uc a = Some u /\ In h (u_hops u) /\ h_fam h = f /\ (all = true \/ h_conj h = false) /\
      nth_site q (shifted_cell (shifted_cell i T) (h_rel h)) (h_to h).
  Proof.
    intros all T f p q. unfold hops_of. rewrite in_flat_map. split.
    - intros ([j s] & Hjs & H). cbn [fst snd] in H.
      assert (Hj : nth_error ss j = Some s).
      { clear -Hjs. revert Hjs. assert (G : forall ls k, In (j, s) (combine (seq k (length ls)) ls) -> k <= j /\ nth_error ls (j - k) = Some s).
        { induction ls as [|x ls IH]; intros k H; [destruct H|]. cbn [length seq combine] in H. destruct H as [H|H].
          - injection H as -> ->. split; [lia|]. rewrite Nat.sub_diag. reflexivity.
          - apply IH in H. destruct H as [H1 H2]. split; [lia|]. replace (j - k) with (S (j - S k)) by lia. exact H2. }
        intros H. apply G in H. destruct H as [_ H]. rewrite Nat.sub_0_r in H. exact H. }
      assert (Hs : In s ss) by (eapply nth_error_In; eauto).
      apply in_flat_map in H. destruct H as (x & Hx & H). apply in_moved in Hx; [|apply fl_lt; auto].
      destruct Hx as (u & h & EU & Hh & E2 & HC & E1). destruct (good_bs size uc Hsize s (Hgood s Hs)) as (B1 & _ & _). fold (fl s) in B1.
      rewrite B1 in *. cbn [fst snd] in *.
      unfold pair_in in H. rewrite E1, E2 in H. unfold fl in H. cbn [mk_site s_flat] in H. rewrite <- place_flat in H.
      destruct ((all || negb (h_conj h)) && (h_fam h =? f)) eqn:EC; [|destruct H].
      destruct (index_of (place size (shifted_cell (shifted_cell (s_idx s) T) (h_rel h)) (h_to h)) qs) as [j'|] eqn:EI; [|destruct H].
      destruct H as [H|[]]. injection H as <- <-. apply index_of_nth in EI; [|apply qs_nodup].
      apply andb_true_iff in EC. destruct EC as [EC EF]. apply Nat.eqb_eq in EF.
      destruct (Hgood s Hs) as (i & a & Hi & Ha & F1 & F2 & F3).
      exists i, a, u, h. split; [exists s; auto|]. rewrite F2, Nat2Z.id in EU. split; [exact EU|]. split; [exact Hh|]. split; [exact EF|].
      split. { apply orb_true_iff in EC. destruct EC as [EC|EC]; [left; exact EC|right; apply negb_true_iff; exact EC]. }
      rewrite F1 in EI, HC.
      unfold qs in EI. rewrite nth_error_map in EI. destruct (nth_error ss j') as [t|] eqn:Et; [|discriminate]. cbn in EI. injection EI as EI.
      assert (Ht : In t ss) by (eapply nth_error_In; eauto). destruct (Hgood t Ht) as (i' & a' & Hi' & Ha' & G1 & G2 & G3).
      exists t. split; [exact Et|]. unfold fl in EI. rewrite G3, Nat2Z.id in EI.
      apply (place_bij size (length uc)) in EI; auto. destruct EI as [-> ->]. auto.
    - intros (i & a & u & h & Np & EU & Hh & EF & EC & Nq).
      pose proof (site_of_good _ _ _ Np) as (G1 & G2 & G3 & G4 & G5). pose proof (site_of_good _ _ _ Nq) as (K1 & K2 & K3 & K4 & K5).
      destruct Np as (s & Hj & E1 & E2). assert (Hs : In s ss) by (eapply nth_error_In; eauto).
      assert (FS : fl s = place size i a) by (unfold qs in G3; rewrite nth_error_map, Hj in G3; cbn in G3; congruence).
      exists (p, s). split.
      + clear -Hj. assert (G : forall p ls k, nth_error ls p = Some s -> In (k + p, s) (combine (seq k (length ls)) ls)).
        { clear. induction p as [|p IH]; intros [|x ls] k H; try discriminate; cbn [length seq combine].
          - injection H as ->. left. f_equal. lia.
          - right. replace (k + S p) with (S k + p) by lia. apply IH. exact H. }
        apply (G p ss 0). exact Hj.
      + cbn [fst snd]. rewrite FS. apply in_flat_map.
        exists (mk_site size (shifted_cell (shifted_cell i T) (h_rel h)) (Z.of_nat (h_to h)), h). split.
        * apply in_moved; auto. rewrite G4. cbn [fst snd]. exists u, h. auto 10.
        * unfold pair_in. cbn [fst snd]. unfold fl. cbn [mk_site s_flat]. rewrite <- place_flat. rewrite EF, Nat.eqb_refl.
          assert (EB : all || negb (h_conj h) = true) by (destruct EC as [-> | ->]; [reflexivity|apply orb_true_r]). rewrite EB. cbn [andb].
          assert (EI : index_of (place size (shifted_cell (shifted_cell i T) (h_rel h)) (h_to h)) qs = Some q) by (apply index_of_nth; [apply qs_nodup|exact K3]).
          rewrite EI. left. reflexivity.
  Qed.

  (** A pair is stored once, by one family. *)
  Lemma hops_of_same : forall all T f f' p q, In (p, q) (hops_of all T f 0 ss) -> In (p, q) (hops_of all T f' 0 ss) -> f = f'.
  Proof.
    intros all T f f' p q H1 H2. apply hops_of_in in H1, H2.
    destruct H1 as (i & a & u & h & (s & Hs & S1 & S2) & EU & Hh & EF & _ & (t & Ht & T1 & T2)).
    destruct H2 as (i' & a' & u' & h' & (s' & Hs' & S1' & S2') & EU' & Hh' & EF' & _ & (t' & Ht' & T1' & T2')).
    assert (s' = s) by congruence. assert (t' = t) by congruence. subst s' t'. assert (EI : i' = i) by congruence. rewrite EI in *. assert (a' = a) by lia. subst a'.
    assert (u' = u) by congruence. subst u'. rewrite T1 in T1'. apply (shift_inj size uc valid Hvalid) in T1'. assert (h_to h = h_to h') by lia.
    assert (h = h') by (eapply (hop_unique uc Huc); eauto). congruence.
  Qed.

  Lemma hops_of_nodup : forall all T f, NoDup (hops_of all T f 0 ss).
  Proof.
    intros all T f. unfold hops_of. apply NoDup_flat_map.
    - assert (G : forall (l : list site) k, NoDup (combine (seq k (length l)) l)).
      { intros l0 k. apply (NoDup_map_inv fst). assert (E : forall (l : list site) k, map fst (combine (seq k (length l)) l) = seq k (length l)).
        { induction l1 as [|x l1 IH]; intros k1; [reflexivity|]. cbn [length seq combine map fst]. rewrite IH. reflexivity. }
        rewrite E. apply seq_NoDup. }
      apply G.
    - intros [j s] Hjs. cbn [fst snd]. apply in_combine_r in Hjs. pose proof (fl_lt s Hjs) as LT.
      assert (ND : NoDup (map (fun x => fl (fst x)) (moved_nb size uc T (fl s)))).
      { unfold moved_nb. destruct (nth_error uc (snd (bs_of size (fl s)))) as [u|] eqn:E; [|constructor].
        rewrite map_map. unfold fl at 1. cbn [fst mk_site s_flat].
        pose proof (uc_nodup _ Huc _ _ E) as NU. apply NoDup_map_inj_in; [|apply NoDup_filter; eapply NoDup_map_inv; exact NU].
        intros h h' Hh Hh' EQ. apply filter_In in Hh, Hh'. destruct Hh as [Hh B], Hh' as [Hh' B']. apply in_block_spec in B, B'.
        rewrite <- !place_flat in EQ. apply (place_bij size (length uc)) in EQ; auto. destruct EQ as [ER ET].
        apply (hop_unique uc Huc _ u h h' E); auto. apply (shift_inj size uc valid Hvalid (add3 (fst (bs_of size (fl s))) T)). exact ER. }
      apply NoDup_flat_map.
      + eapply NoDup_map_inv; exact ND.
      + intros x _. unfold pair_in. destruct (_ && _); [|constructor]. destruct (index_of _ _); repeat constructor. intros [].
      + intros x y b Hx Hy Bx By. unfold pair_in in Bx, By.
        destruct ((all || _) && _) in Bx; [|destruct Bx]. destruct ((all || _) && _) in By; [|destruct By].
        destruct (index_of (fl (fst x)) qs) as [jx|] eqn:Ex; [|destruct Bx]. destruct (index_of (fl (fst y)) qs) as [jy|] eqn:Ey; [|destruct By].
        destruct Bx as [<-|[]]. destruct By as [By|[]]. injection By as <-.
        apply index_of_nth in Ex, Ey; try apply qs_nodup. assert (EQ : fl (fst x) = fl (fst y)) by congruence.
        eapply (NoDup_map_inj (fun x => fl (fst x))); eauto.
    - intros [j s] [j' s'] b H1 H2 B1 B2. cbn [fst snd] in *. apply in_flat_map in B1, B2. destruct B1 as (x & _ & B1). destruct B2 as (x' & _ & B2).
      assert (F : forall k y, In b (pair_in all f k y) -> fst b = k).
      { intros k y. unfold pair_in. destruct (_ && _); [|intros []]. destruct (index_of _ _); [|intros []]. intros [<-|[]]. reflexivity. }
      apply F in B1, B2. assert (EJ : j' = j) by congruence. rewrite EJ in *. clear EJ B1 B2.
      assert (G : forall (ls : list site) k s s', In (j, s) (combine (seq k (length ls)) ls) -> In (j, s') (combine (seq k (length ls)) ls) -> s = s').
      { clear. induction ls as [|x ls IH]; intros k s s' H H'; [destruct H|]. cbn [length seq combine] in H, H'.
        destruct H as [H|H], H' as [H'|H'].
        - congruence.
        - apply in_combine_l in H'. apply in_seq in H'. injection H as -> _. lia.
        - apply in_combine_l in H. apply in_seq in H. injection H' as -> _. lia.
        - eapply IH; eauto. }
      f_equal. eapply G; eauto.
  Qed.
End Build.
