(* A system in a model whose registries hold further families. *)
From Verif Require Import Base Rle RleProofs Blocks TablesSpec Scalar Foundation Lattice Hamiltonian HamiltonianSpec HamFacts HamApi HamCor SystemMods WidenProofs MakeProofs.
Local Open Scope nat_scope.

Section Extend.
  Variable R : scalar.
  Variable P : Type.
  Variable base : hsys R P.
  Hypothesis W : wf_hsys base.
  Variable er eh : list (name * mat R).
  Notation sys := (hsys_of (hs_site base ++ er) (hs_hop base ++ eh) (start_of R P (length eh) base)).

  Lemma entry_app : forall (r x : list (name * mat R)) k, k < length r -> reg_entry (r ++ x) k = reg_entry r k.
  Proof. intros r x k H. unfold reg_entry. apply app_nth1. auto. Qed.
  Lemma stored_lt : forall h f c, In (f, c) (stored h) -> f < length (hb_blocks h).
  Proof.
    intros h f c H. apply in_stored_iff in H. destruct (Nat.lt_ge_cases f (length (hb_blocks h))); auto.
    rewrite nth_overflow in H by auto. destruct H.
  Qed.
  Lemma site_lt : forall a, a < rle_size (hs_subs base) -> fst (nth a (site_list (hs_subs base)) (0, 0)) < length (hs_site base).
  Proof.
    intros a H. destruct W as (_ & _ & W3 & _). change (site_list (hs_subs base)) with (labels (hs_subs base)).
    assert (I : In (nth a (labels (hs_subs base)) (0, 0)) (labels (hs_subs base))) by (apply nth_In; rewrite <- rle_size_labels; auto).
    unfold labels in I at 2. apply in_flat_map in I. destruct I as (e & I1 & I2). apply repeat_spec in I2. rewrite I2. cbn [fst]. apply (W3 e I1).
  Qed.

  Lemma extend_wf : wf_hsys sys.
  Proof.
    destruct W as (W1 & W2 & W3 & W4 & W5).
    assert (WH : forall h, wf_hops base h -> wf_hops sys (widen (length eh) h)).
    { intros h [A B]. split.
      - unfold widen. cbn [hsys_of hs_hop hb_blocks]. rewrite !app_length, repeat_length. lia.
      - intros f c Hc. rewrite stored_widen in Hc. destruct (B f c Hc) as (B1 & B2 & B3 & B4). pose proof (stored_lt h f c Hc).
        cbn [hsys_of hs_hop hs_subs start_of sd_subs]. rewrite entry_app by lia. auto. }
    split; [exact W1|]. split; [exact W2|]. split; [|split].
    - intros e He. destruct (W3 e He) as (A & B & C & D). cbn [hsys_of hs_site]. rewrite app_length, entry_app by auto. repeat split; auto. lia.
    - apply WH, W4.
    - intros b Hb. cbn [hsys_of hs_bounds start_of sd_bounds] in Hb. apply in_map_iff in Hb. destruct Hb as (b0 & <- & Hb). cbn [fst]. apply WH, W5, Hb.
  Qed.

  Lemma extend_element : forall nt og hg unshift phase a i b j, a < rle_size (hs_subs base) ->
    element nt sys og hg unshift phase a i b j = element nt base og hg unshift phase a i b j.
  Proof.
    intros nt og hg unshift phase a i b j Ha. destruct W as (W1 & W2 & W3 & W4 & W5).
    assert (HM : forall h sh f c, wf_hops base h -> In (f, c) (stored h) -> hop_matrix nt sys hg sh f c = hop_matrix nt base hg sh f c).
    { intros h sh f c [A _] Hc. pose proof (stored_lt h f c Hc). unfold hop_matrix. cbn [hsys_of hs_hop hs_pos start_of sd_pos]. rewrite entry_app by lia. reflexivity. }
    unfold element. f_equal; [f_equal|].
    - destruct (a =? b)%nat; auto. f_equal. unfold site_matrix. cbn [hsys_of hs_site hs_subs hs_pos start_of sd_pos sd_subs]. rewrite entry_app by (apply site_lt; auto). reflexivity.
    - cbn [hsys_of hs_hops start_of sd_hops]. rewrite stored_widen. apply ksum_ext. intros [f c] Hc. cbn [fst snd]. rewrite (HM (hs_hops base)) by auto. reflexivity.
    - cbn [hsys_of hs_bounds start_of sd_bounds]. rewrite ksum_map. apply ksum_ext. intros b0 Hb0. cbn [fst snd]. rewrite stored_widen.
      apply ksum_ext. intros [f c] Hc. cbn [fst snd]. unfold hop_part. rewrite (HM (fst b0)) by auto. reflexivity.
  Qed.

  Lemma extend_simple : simple_bonds base -> simple_bonds sys.
  Proof. unfold simple_bonds. cbn [hsys_of hs_hops start_of sd_hops]. rewrite stored_widen. auto. Qed.
  Lemma extend_cap : forall cap, cap_fits R P base cap -> cap_fits R P sys cap.
  Proof.
    intros cap H h Hh f c Hc. destruct W as (_ & _ & _ & W4 & W5).
    assert (X : forall h0, h = widen (length eh) h0 -> wf_hops base h0 -> (h0 = hs_hops base \/ In h0 (map fst (hs_bounds base))) -> mat_size (snd (reg_entry (hs_hop sys) f)) <= cap).
    { intros h0 -> [A _] HI. rewrite stored_widen in Hc. pose proof (stored_lt h0 f c Hc). cbn [hsys_of hs_hop]. rewrite entry_app by lia. eapply H; eauto. }
    destruct Hh as [->|Hh].
    - eapply X; [reflexivity|exact W4|auto].
    - cbn [hsys_of hs_bounds start_of sd_bounds] in Hh. rewrite map_map in Hh. apply in_map_iff in Hh. destruct Hh as (b & <- & Hb). cbn [fst] in *.
      eapply X; [reflexivity|apply W5; auto|right; apply in_map; auto].
  Qed.
End Extend.
