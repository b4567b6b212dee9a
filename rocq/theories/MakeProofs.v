(* The whole system build (make_system) in terms of the simple build of SystemBuild.v. *)
From Verif Require Import Base Rle RleProofs Blocks BlocksProofs TablesSpec Scalar Foundation FoundationSpec FoundationFacts PopulateFacts
  Lattice LatticeSpec LatticeProofs Symmetry SymmetrySpec SymmetryProofs BoundaryProofs Hamiltonian HamiltonianSpec HamFacts SystemBuild HamApi
  Leads SystemMods ModsSpec ModsProofs ModsSystem WidenProofs.
From Coq Require Import Permutation.
Local Open Scope nat_scope.

Section Make.
  Variable R : scalar.
  Variable P : Type.
  Variable offset_ok : P -> bool.
  Variable order : list (family R) -> list (family R).
  Variable cs : list (lcall R P).
  Notation l := (calls offset_ok order cs).
  Variable subs : list (sublattice R P).
  Variable fams : list (family R).
  Hypothesis Hs : Permutation subs (l_subs l).
  Hypothesis Hf : Permutation fams (l_fams l).
  Variable uc : list (usite P).
  Hypothesis Huc : unit_cell subs fams = Ok uc.
  Variable reg hreg : list (option (name * mat R)).
  Hypothesis Hreg : site_registry subs = Ok reg.
  Hypothesis Hhreg : hopping_registry fams = Ok hreg.
  Hypothesis Hprim : forall s o, In s (l_subs l) -> In o (l_subs l) -> sb_uid o = sb_alias s -> primary o.
  Variable size lower : idx3.
  Hypothesis Hsize : positive_block size.
  Variable s : sym.
  Hypothesis Hper : block_holds_period size s.
  Notation N := (num_block_sites size (length uc)).
  Variable fpos : list P.
  Variable dflt : P.
  Variable padd : P -> P -> P.
  Hypothesis Hpos : length fpos = N.
  Variable shift : idx3 -> P.
  Variable inside : list bool.
  Hypothesis Hinside : length inside = N.
  Notation nfam := (length (l_fams l)).

  Definition start_of (k : nat) (base : hsys R P) : sysdata P P :=
    SysData (hs_pos base) (hs_subs base) (widen k (hs_hops base)) (map (fun b => (widen k (fst b), snd b)) (hs_bounds base)) [].

  Lemma make_base : forall fms rs, Forall2 mod_is fms rs ->
    exists valid0 pos v, length valid0 = N /\
      (forall i a, cell_of size i -> a < length uc -> (flagged size valid0 (i, a) = true <-> flagged size inside (i, a) = true /\ in_period size s i)) /\
      rules_effect size uc (l_subs l) rs fpos valid0 pos v /\ length pos = N /\ length v = N /\
      (Forall only_removes rs -> forall i a, cell_of size i -> a < length uc -> flagged size v (i, a) = true ->
         flagged size inside (i, a) = true /\ in_period size s i) /\
      (forall mods gms er eh leads, split_mods mods = (fms, gms) -> create_attachment_areas size lower uc pos (map fst leads) v = Throw ->
        make_system dflt padd size lower uc subs nfam s shift (map entry_of reg ++ er) (map entry_of hreg ++ eh) mods leads fpos inside = Throw) /\
      forall leads v', create_attachment_areas size lower uc pos (map fst leads) v = Ok v' -> length v' = N ->
        (forall i a, cell_of size i -> a < length uc -> flagged size v' (i, a) = true -> in_period size s i) ->
        exists base fi, build_system dflt size uc s shift reg hreg pos v' = Ok base /\ hs_pos base = mask v' pos /\
          hs_site base = map entry_of reg /\ hs_hop base = map entry_of hreg /\ length (hb_blocks (hs_hops base)) = nfam /\
          finalized_indices size uc nfam v' = Ok fi /\
          forall mods gms er eh, split_mods mods = (fms, gms) -> make_system dflt padd size lower uc subs nfam s shift (map entry_of reg ++ er) (map entry_of hreg ++ eh) mods leads fpos inside
          = obind (osequence (fun x => make_structure size lower uc pos padd dflt nfam (fst (fst fi)) (snd x) (fst x) v') leads) (fun lts =>
            obind (ofold (apply_system (map entry_of reg ++ er) (map entry_of hreg ++ eh)) gms (start_of (length eh) base)) (fun sys =>
            obind (remove_invalid sys) (fun sys =>
            if length (sd_pos sys) =? 0 then Throw else Ok (sys, lts)))).
  Proof.
    intros fms rs HM.
    destruct (sym_apply_ok size (length uc) s inside Hsize Hper Hinside) as (v0 & E0 & L0 & F0).
    destruct (apply_rules R P offset_ok order cs subs fams Hs Hf uc Huc size Hsize fms rs fpos v0 HM Hpos ltac:(congruence)) as (pos & v & E1 & LP & LV & RE).
    exists v0, pos, v. split; [congruence|]. split; [exact F0|]. split; [exact RE|]. split; [exact LP|]. split; [exact LV|]. split.
    { intros OR i a Ci La Fl. apply F0; auto.
      refine (rules_remove R P offset_ok order cs subs fams Hs Hf uc Huc size Hsize rs fpos v0 pos v RE OR Hpos (i, a) _ Fl). split; auto. }
    assert (LH : length hreg = nfam) by (rewrite (hreg_eq R P offset_ok order cs fams Hf hreg Hhreg); apply map_length).
    split.
    { intros mods gms er eh leads SP EC. unfold make_system. rewrite E0. cbn [obind]. rewrite SP. cbn [fst snd]. rewrite E1. cbn [obind fst snd]. rewrite EC. reflexivity. }
    intros leads v' EC LV' IN.
    destruct (api_populate R P offset_ok order cs subs fams Hs Hf uc Huc size Hsize v' LV' pos dflt LP) as (d & hb & EP & VF & LB & HN & HL & HB).
    destruct (api_boundaries_raw R P offset_ok order cs subs fams Hs Hf uc Huc size Hsize s Hper v' LV') as (bs & EB & _).
    pose proof EB as EB'. unfold boundaries_of in EB'. apply obind_ok in EB'. destruct EB' as (fi & EF & EB2).
    eexists _, fi. split; [unfold build_system; rewrite LH, EP; cbn [obind]; rewrite EB; cbn [obind]; reflexivity|].
    cbn [hs_pos hs_site hs_hop hs_hops hs_subs hs_bounds fst snd]. split; [reflexivity|]. split; [reflexivity|]. split; [reflexivity|]. split; [exact HL|]. split; [exact EF|]. intros mods gms er eh SP.
    unfold make_system. rewrite E0. cbn [obind]. rewrite SP. cbn [fst snd]. rewrite E1. cbn [obind fst snd]. rewrite EC. cbn [obind].
    rewrite EF. cbn [obind].
    destruct (osequence _ leads) as [lts| |]; cbn [obind]; [|reflexivity|reflexivity].
    rewrite app_length, map_length, LH. rewrite (populate_widen _ _ _ _ (length eh) _ _ _ _ _ EP). cbn [obind fst snd].
    rewrite (boundaries_widen _ _ _ (length eh) _ _ _ _ EB2). cbn [obind]. unfold start_of. cbn [hs_pos hs_subs hs_hops hs_bounds].
    rewrite !map_map. cbn [widen_bound b_hops b_shift fst snd]. reflexivity.
  Qed.

  Lemma split_none : forall mods rs, Forall2 (@mod_is R P) mods rs -> split_mods mods = (mods, []).
  Proof.
    intros mods rs H. induction H as [|m r ms rs H1 H2 IH]; [reflexivity|]. cbn [split_mods].
    destruct m; cbn [requires_system]; try (rewrite IH; reflexivity); destruct r; destruct H1.
  Qed.
  Lemma split_at : forall fms rs gms, Forall2 (@mod_is R P) fms rs -> (forall g t, gms = g :: t -> requires_system g = true) -> split_mods (fms ++ gms) = (fms, gms).
  Proof.
    intros fms rs gms H G. induction H as [|m r ms rs H1 H2 IH]; cbn [app].
    - destruct gms as [|g t]; [reflexivity|]. cbn [split_mods]. rewrite (G g t eq_refl). reflexivity.
    - cbn [split_mods]. destruct m; cbn [requires_system]; try (rewrite IH; reflexivity); destruct r; destruct H1.
  Qed.

  Lemma widen_0 : forall h, widen 0 h = h.
  Proof. intros [n b]. unfold widen. cbn. rewrite app_nil_r. reflexivity. Qed.
  Lemma start_0 : forall base, hsys_of (hs_site base) (hs_hop base) (start_of 0 base) = base.
  Proof.
    intros [a b c e f g]. unfold hsys_of, start_of. cbn [hs_pos hs_site hs_hop hs_hops hs_subs hs_bounds sd_pos sd_subs sd_hops sd_bounds]. rewrite widen_0.
    f_equal. transitivity (map (fun x => x) g); [|apply map_id]. apply map_ext. intros [h x]. cbn. rewrite widen_0. reflexivity.
  Qed.

  Lemma mask_nonempty : forall {A} (v : list bool) (x : list A), length x = length v -> (length (mask v x) = 0 <-> forall k, nth k v false = false).
  Proof.
    intros A. induction v as [|b v IH]; intros [|y x] L; cbn in L; try lia.
    - cbn. split; auto. intros _ []; reflexivity.
    - cbn [mask]. destruct b.
      + split; [cbn; lia|]. intros H. specialize (H 0). discriminate.
      + rewrite IH by lia. split; [intros H [|k]; [reflexivity|apply H]|intros H k; apply (H (S k))].
  Qed.

  (** Without generators: the model is the simple build on the modified foundation. *)
  Lemma make_plain : forall mods rs, Forall2 mod_is mods rs -> Forall only_removes rs ->
    exists valid0 pos v base, length valid0 = N /\
      (forall i a, cell_of size i -> a < length uc -> (flagged size valid0 (i, a) = true <-> flagged size inside (i, a) = true /\ in_period size s i)) /\
      rules_effect size uc (l_subs l) rs fpos valid0 pos v /\ length pos = N /\ length v = N /\
      (forall i a, cell_of size i -> a < length uc -> flagged size v (i, a) = true -> in_period size s i) /\
      build_system dflt size uc s shift reg hreg pos v = Ok base /\
      match make_system dflt padd size lower uc subs nfam s shift (map entry_of reg) (map entry_of hreg) mods [] fpos inside with
      | Ok (sys, lts) => hsys_of (map entry_of reg) (map entry_of hreg) sys = base /\ lts = [] /\ sd_valid sys = [] /\
          exists i a, cell_of size i /\ a < length uc /\ flagged size v (i, a) = true
      | Throw => forall i a, cell_of size i -> a < length uc -> flagged size v (i, a) = false
      | UB => False
      end.
  Proof.
    intros mods rs HM OR. destruct (make_base mods rs HM) as (v0 & pos & v & L0 & F0 & RE & LP & LV & IN & _ & K).
    destruct (K [] v eq_refl LV ltac:(intros i a Ci La Fl; apply (IN OR i a); auto)) as (base & fi & EB & MP & RS & RH & _ & EF & EM).
    exists v0, pos, v, base. split; [exact L0|]. split; [exact F0|]. split; [exact RE|]. split; [exact LP|]. split; [exact LV|].
    split; [intros i a Ci La Fl; apply (IN OR i a); auto|]. split; [exact EB|]. specialize (EM mods [] [] [] (split_none mods rs HM)). rewrite !app_nil_r in EM. rewrite EM.
    cbn [osequence obind ofold remove_invalid start_of sd_valid sd_pos length]. rewrite MP.
    pose proof (place_bij size (length uc) Hsize) as (_ & _ & PB2).
    destruct (Nat.eqb_spec (length (mask v pos)) 0) as [Z|Z].
    - intros i a Ci La. unfold flagged. apply (mask_nonempty v pos ltac:(congruence)). exact Z.
    - split; [|split; [reflexivity|split; [reflexivity|]]].
      + rewrite <- RS, <- RH. apply start_0.
      + assert (X : exists k, nth k v false = true).
        { destruct (existsb (fun b => b) v) eqn:EX.
          - apply existsb_exists in EX. destruct EX as (b & I & ->). apply (In_nth _ _ false) in I. destruct I as (k & _ & E). eauto.
          - exfalso. apply Z. apply mask_nonempty; [congruence|]. intros k. destruct (nth k v false) eqn:Q; auto.
            assert (In true v) by (rewrite <- Q; apply nth_In; destruct (Nat.lt_ge_cases k (length v)); auto; rewrite nth_overflow in Q by auto; discriminate).
            assert (existsb (fun b => b) v = true) by (apply existsb_exists; eauto). congruence. }
        destruct X as (k & Hk). assert (k < N) by (rewrite <- LV; destruct (Nat.lt_ge_cases k (length v)); auto; rewrite nth_overflow in Hk by auto; discriminate).
        destruct (PB2 k) as (i & a & Ci & La & E); auto. exists i, a. split; auto. split; auto. unfold flagged. cbn [fst snd]. congruence.
  Qed.
End Make.
