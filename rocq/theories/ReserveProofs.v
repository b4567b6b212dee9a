(* How many matrix elements a build hands over, against the space that is reserved for them
   (System.cpp:16-31 hamiltonian_nnz, Hamiltonian.hpp:95-116). *)
From Verif Require Import Base Rle RleProofs Blocks Scalar Lattice Symmetry SystemBuild Foundation Hamiltonian HamProofs SystemMods.

Lemma length_flat_const : forall {A B} (f : A -> list B) n l, (forall a, In a l -> length (f a) = n) ->
  length (flat_map f l) = length l * n.
Proof.
  intros A B f n l. induction l as [|a l IH]; intros H; [reflexivity|]. cbn [flat_map length]. rewrite app_length, H by (left; auto).
  rewrite IH by (intros; apply H; right; auto). lia.
Qed.

Lemma concat_le : forall {A B} (f : B -> outcome (list A)) (size : B -> nat) l rs,
  Forall2 (fun b x => f b = Ok x) l rs -> (forall b x, In b l -> f b = Ok x -> length x <= size b) ->
  length (concat rs) <= list_sum (map size l).
Proof.
  intros A B f size l rs H. induction H as [|b x l rs E F IH]; intros S; [cbn; lia|].
  cbn [concat map list_sum fold_right]. rewrite app_length. specialize (S b x (or_introl eq_refl) E) as S1.
  assert (length (concat rs) <= list_sum (map size l)) by (apply IH; intros; eapply S; eauto; right; auto).
  change (fold_right Nat.add 0 (map size l)) with (list_sum (map size l)). lia.
Qed.

Lemma slices_concat : forall {A} fuel step (l : list A) sl, slices fuel step l = Some sl -> concat sl = l.
Proof.
  intros A fuel. induction fuel as [|k IH]; intros step l sl; destruct l as [|a l]; cbn [slices]; intros H; try discriminate;
    try (injection H as <-; reflexivity).
  destruct (slices k step (skipn step (a :: l))) as [t|] eqn:E; [|discriminate]. injection H as <-. cbn [concat].
  rewrite (IH _ _ _ E). apply firstn_skipn.
Qed.

Section P.
  Variable R : scalar.
  Variable P : Type.

  Lemma emit_le : forall idx (data : list R) r, emit idx data = Ok r -> length r <= length idx.
  Proof.
    induction idx as [|ij idx IH]; intros data r H; [injection H as <-; auto|]. destruct data as [|v data]; [discriminate|].
    cbn [emit] in H. destruct (emit idx data) as [q| |] eqn:E; cbn in H; try discriminate. injection H as <-.
    specialize (IH _ _ E). destruct (keqb v k0); cbn [length]; lia.
  Qed.

  Lemma onsite_le : forall nt (sys : hsys R P) om r, apply_to_onsite nt sys om = Ok r ->
    length r <= list_sum (map (fun b => e_num b * e_norb b * e_norb b) (hs_subs sys)).
  Proof.
    intros nt sys om r H. unfold apply_to_onsite in H. destruct (negb _ && _); [injection H as <-; cbn; lia|].
    assert (G : ofold (fun acc s => obind (obind (onsite_buffer nt sys om (has_nonzero_energy (hs_site sys)) s) (fun b => emit (onsite_indices s) b))
                 (fun r => Ok (acc ++ r))) (iter (hs_subs sys)) [] = Ok r).
    { rewrite <- H. apply ofold_ext_in. intros a b _. destruct (onsite_buffer _ _ _ _ b); reflexivity. }
    apply (ofold_app_inv (fun s => obind (onsite_buffer nt sys om (has_nonzero_energy (hs_site sys)) s) (fun b => emit (onsite_indices s) b))) in G.
    destruct G as (rs & F & ->). cbn [app].
    eapply Nat.le_trans; [apply (concat_le _ (fun s => e_num (it_e s) * e_norb (it_e s) * e_norb (it_e s)) _ _ F)|].
    - intros b x _ E. destruct (onsite_buffer _ _ _ _ b) as [q| |]; cbn in E; try discriminate. apply emit_le in E.
      unfold onsite_indices in E. rewrite (length_flat_const _ (e_norb (it_e b) * e_num (it_e b))) in E.
      2:{ intros i _. rewrite (length_flat_const _ (e_num (it_e b))); [rewrite seq_length; reflexivity|]. intros j _. rewrite map_length, seq_length. reflexivity. }
      rewrite seq_length in E. nia.
    - assert (G : forall d a b, map it_e (iter_from d a b) = d).
      { induction d as [|e d IH]; intros a b; [reflexivity|]. cbn. rewrite IH. reflexivity. }
      unfold iter. rewrite <- (G (hs_subs sys) 0 0) at 2. rewrite map_map. apply Nat.le_refl.
  Qed.

  Lemma slice_le : forall (nt : ntype R) (pos : list P) shift mods fam rs cs coos r, hopping_slice nt pos shift mods fam rs cs coos = Ok r ->
    length r <= length coos * mat_size (snd fam).
  Proof.
    intros nt pos shift mods fam rs cs coos r H. unfold hopping_slice in H.
    destruct (osequence _ coos) as [p1| |]; cbn [obind] in H; try discriminate.
    destruct (osequence _ coos) as [p2| |]; cbn [obind] in H; try discriminate.
    match type of H with obind ?x _ = _ => destruct x as [b| |] end; cbn [obind] in H; try discriminate. apply emit_le in H. unfold hopping_indices in H.
    rewrite (length_flat_const _ (m_cols (snd fam) * length coos)) in H.
    2:{ intros i _. rewrite (length_flat_const _ (length coos)); [rewrite seq_length; reflexivity|]. intros j _. apply map_length. }
    rewrite seq_length in H. unfold mat_size. nia.
  Qed.

  Lemma block_le : forall cap nt (sys : hsys R P) shift mods f coos e r, reg_get (hs_hop sys) f = Ok e ->
    hopping_block cap nt sys shift mods f coos = Ok r -> length r <= length coos * mat_size (snd e).
  Proof.
    intros cap nt sys shift mods f coos e r G H. unfold hopping_block in H. destruct coos as [|c coos]; [injection H as <-; cbn; lia|].
    set (l := c :: coos) in *. rewrite G in H. cbn [obind] in H.
    destruct (translator_start _ (m_rows _)) as [rs| |]; cbn [obind] in H; try discriminate.
    destruct (translator_start _ (m_cols _)) as [cs| |]; cbn [obind] in H; try discriminate.
    destruct (mat_size (snd e) =? 0); try discriminate. destruct (slices _ _ l) as [sl|] eqn:S; try discriminate.
    apply (ofold_app_inv (fun c => hopping_slice nt (hs_pos sys) shift mods e rs cs c)) in H. destruct H as (q & F & ->). cbn [app].
    eapply Nat.le_trans; [apply (concat_le _ (fun c => length c * mat_size (snd e)) _ _ F); intros; eapply slice_le; eauto|].
    rewrite <- (slices_concat _ _ _ _ S). clear. induction sl as [|a sl IH]; [cbn; lia|].
    cbn [map list_sum fold_right concat]. rewrite app_length. unfold list_sum in IH. nia.
  Qed.

  Lemma put_length : forall strict n (l : list (Z * Z * R)) m m', ofold (put strict n) l m = Ok m' -> length m' = length m + length l.
  Proof.
    intros strict n l. induction l as [|[[i j] v] l IH]; intros m m' H; [injection H as <-; cbn; lia|].
    cbn [ofold] in H. destruct (put strict n m (i, j, v)) as [q| |] eqn:E; cbn [obind] in H; try discriminate.
    apply IH in H. unfold put in E. destruct (_ && _ && _ && _)%bool; try discriminate. destruct (strict && _)%bool; try discriminate.
    injection E as <-. rewrite app_length in H. cbn [length] in *. lia.
  Qed.

  Lemma both_length : forall (cj : R -> R) l, length (flat_map (both cj) l) = 2 * length l.
  Proof. intros cj l. induction l as [|[[i j] v] l IH]; [reflexivity|]. cbn [flat_map both app length]. rewrite IH. lia. Qed.

  Lemma nnz_sum : forall (reg hreg : list (name * mat R)) (s : sysdata P P) n, hamiltonian_nnz hreg s = Ok n ->
    (forall fb, In fb (with_family (hb_blocks (sd_hops s))) -> exists e, reg_get hreg (fst fb) = Ok e) /\
    n = list_sum (map (fun b => e_num b * e_norb b * e_norb b) (sd_subs s)) + 2 * list_sum (map (fun fb =>
          length (snd fb) * match reg_get hreg (fst fb) with Ok e => mat_size (snd e) | _ => 0 end) (with_family (hb_blocks (sd_hops s)))).
  Proof.
    intros reg hreg s n H. unfold hamiltonian_nnz in H. change (combine (seq 0 (length (hb_blocks (sd_hops s)))) (hb_blocks (sd_hops s)))
      with (with_family (hb_blocks (sd_hops s))) in H. set (W := with_family _) in *.
    assert (A : forall d a, fold_left (fun n b => n + e_num b * e_norb b * e_norb b) d a = a + list_sum (map (fun b => e_num b * e_norb b * e_norb b) d)).
    { induction d as [|e d IH]; intros a; cbn [fold_left map list_sum fold_right]; [lia|]. rewrite IH. unfold list_sum. lia. }
    rewrite A in H. cbn [Nat.add] in H.
    assert (B : forall W a m, ofold (fun n (fb : nat * list coo) => obind (reg_get hreg (fst fb)) (fun e => Ok (n + length (snd fb) * (m_rows (snd e) * m_cols (snd e))))) W a = Ok m ->
      (forall fb, In fb W -> exists e, reg_get hreg (fst fb) = Ok e) /\
      m = a + list_sum (map (fun fb => length (snd fb) * match reg_get hreg (fst fb) with Ok e => mat_size (snd e) | _ => 0 end) W)).
    { clear. induction W as [|[f b] W IH]; intros a m H; [injection H as <-; cbn; split; [tauto|lia]|].
      cbn [ofold fst snd] in H. destruct (reg_get hreg f) as [e| |] eqn:E; cbn [obind] in H; try discriminate.
      apply IH in H. destruct H as [H1 H2]. split.
      - intros fb [<-|I]; [cbn; eauto|auto].
      - cbn [map list_sum fold_right fst snd]. rewrite E. unfold mat_size at 1. unfold list_sum in H2. lia. }
    unfold omap in H. destruct (ofold _ W 0) as [h| |] eqn:E; cbn [obind] in H; try discriminate. injection H as <-.
    apply B in E. destruct E as [E1 E2]. split; [exact E1|]. cbn [Nat.add] in E2. rewrite <- E2. lia.
  Qed.

  Lemma build_le : forall cap nt (reg hreg : list (name * mat R)) (s : sysdata P P) om hm simple m n,
    hamiltonian_nnz hreg s = Ok n -> build_main cap nt (hsys_of reg hreg s) om hm simple = Ok m -> length m <= n.
  Proof.
    intros cap nt reg hreg s om hm simple m n Hn Hm. apply (nnz_sum reg) in Hn. destruct Hn as [Hr ->]. unfold build_main in Hm.
    destruct (apply_to_onsite nt (hsys_of reg hreg s) om) as [os| |] eqn:Eo; cbn [obind] in Hm; try discriminate.
    destruct (apply_to_hoppings cap nt (hsys_of reg hreg s) (fun p => p) hm _) as [hs| |] eqn:Eh; cbn [obind] in Hm; try discriminate.
    apply put_length in Hm. rewrite app_length, both_length in Hm. cbn [length Nat.add] in Hm. rewrite Hm. apply onsite_le in Eo.
    cbn [hs_subs hsys_of] in Eo. unfold apply_to_hoppings in Eh. cbn [hs_hops hsys_of hs_hop] in Eh.
    set (fast := ((length hm =? 0) && _)%bool) in Eh.
    assert (L : length hs <= list_sum (map (fun fb => length (snd fb) * match reg_get hreg (fst fb) with Ok e => mat_size (snd e) | _ => 0 end)
                  (with_family (hb_blocks (sd_hops s))))); [|lia].
    apply (ofold_app_inv (fun fb => if fast then hopping_block_fast nt (hsys_of reg hreg s) (fst fb) (snd fb)
             else hopping_block cap nt (hsys_of reg hreg s) (fun p => p) hm (fst fb) (snd fb))) in Eh.
    destruct Eh as (rs & F & ->). cbn [app].
    apply (concat_le _ _ _ _ F). intros [f b] x I E. cbn [fst snd] in *. destruct (Hr _ I) as [e G]. cbn [fst] in G. rewrite G.
    destruct fast eqn:Ef.
    - unfold hopping_block_fast in E. cbn [hs_hop hsys_of] in E. rewrite G in E. cbn [obind] in E. injection E as <-. rewrite map_length.
      unfold fast in Ef. apply andb_true_iff in Ef. destruct Ef as [_ Ef]. apply negb_true_iff in Ef.
      assert (S1 : mat_size (snd e) = 1); [|rewrite S1; lia].
      destruct (Nat.eq_dec (mat_size (snd e)) 1) as [Q|N]; [auto|]. exfalso.
      assert (T : has_multiple_orbitals hreg = true); [|unfold has_multiple_orbitals in *; congruence].
      apply existsb_exists. exists e. split; [|apply negb_true_iff, Nat.eqb_neq; exact N].
      unfold reg_get in G. destruct (nth_error hreg f) eqn:Q; [|discriminate]. injection G as <-. eapply nth_error_In; eauto.
    - apply (block_le cap nt (hsys_of reg hreg s) (fun p => p) hm f b e x G E).
  Qed.
End P.
