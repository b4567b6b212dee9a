(* Registering further hopping families adds empty blocks to the tables and changes nothing else. *)
From Verif Require Import Base Rle Blocks BlocksProofs Foundation Symmetry Scalar Lattice Hamiltonian HamiltonianSpec HamFacts HamApi.
Local Open Scope nat_scope.

Definition widen (k : nat) (h : hblocks) : hblocks := HB (hb_n h) (hb_blocks h ++ repeat [] k).

Lemma obind_ok : forall {A B} (x : outcome A) (f : A -> outcome B) b, obind x f = Ok b -> exists a, x = Ok a /\ f a = Ok b.
Proof. intros A B [a| |] f b E; cbn in E; try discriminate. eauto. Qed.
Lemma omap_ok : forall {A B} (f : A -> B) x b, omap f x = Ok b -> exists a, x = Ok a /\ b = f a.
Proof. intros A B f [a| |] b E; cbn in E; try discriminate. injection E as <-. eauto. Qed.

Lemma ofold_sim : forall {A B X} (f : A -> X -> outcome A) (g : B -> X -> outcome B) (w : A -> B) xs,
  (forall a x a', In x xs -> f a x = Ok a' -> g (w a) x = Ok (w a')) ->
  forall a a', ofold f xs a = Ok a' -> ofold g xs (w a) = Ok (w a').
Proof.
  intros A B X f g w. induction xs as [|x xs IH]; intros H a a' E; cbn [ofold] in *.
  - injection E as <-. reflexivity.
  - apply obind_ok in E. destruct E as (a1 & E1 & E2). rewrite (H _ _ _ (or_introl eq_refl) E1). cbn [obind].
    apply IH; auto. intros b y b' Hy. apply H. right; auto.
Qed.

Lemma upd_app1 : forall {A} (l m : list A) i x, i < length l -> upd (l ++ m) i x = upd l i x ++ m.
Proof. induction l as [|y l IH]; intros m [|i] x H; cbn in *; try lia; auto. f_equal. apply IH. lia. Qed.
Lemma aget_app1 : forall {A} (l m : list A) i x, aget l i = Ok x -> aget (l ++ m) i = Ok x.
Proof.
  intros A l m i x H. unfold aget in *. destruct (nth_error l i) eqn:E; [|discriminate]. rewrite nth_error_app1; [rewrite E; auto|]. apply nth_error_Some. congruence.
Qed.
Lemma aget_lt : forall {A} (l : list A) i x, aget l i = Ok x -> i < length l.
Proof. intros A l i x H. unfold aget in H. destruct (nth_error l i) eqn:E; [|discriminate]. apply nth_error_Some. congruence. Qed.

Lemma hb_add_widen : forall k h f r c h', hb_add h f r c = Ok h' -> hb_add (widen k h) f r c = Ok (widen k h').
Proof.
  intros k h f r c h' E. unfold hb_add in *. apply obind_ok in E. destruct E as (b & E1 & E2). injection E2 as <-.
  unfold widen. cbn [hb_blocks hb_n]. rewrite (aget_app1 _ _ _ _ E1). cbn [obind]. rewrite upd_app1 by (eapply aget_lt; eauto). reflexivity.
Qed.

Lemma hb_new_widen : forall t n k, hb_new t (n + k) = widen k (hb_new t n).
Proof. intros. unfold hb_new, widen. cbn. rewrite repeat_app. reflexivity. Qed.

Lemma fold_plus_acc : forall {A} (f : A -> nat) l a, fold_left (fun n b => n + f b) l a = a + fold_left (fun n b => n + f b) l 0.
Proof. induction l as [|x l IH]; intros a; cbn; [lia|]. rewrite IH, (IH (f x)). lia. Qed.
Lemma nnz_widen : forall k h, hb_nnz (widen k h) = hb_nnz h.
Proof.
  intros k h. unfold hb_nnz, widen. cbn [hb_blocks]. rewrite fold_left_app. set (a := fold_left _ (hb_blocks h) 0). generalize a. clear a.
  induction k as [|k IH]; intros a; cbn; auto. rewrite IH. lia.
Qed.

Lemma finalized_widen : forall {P} size (uc : list (usite P)) n k valid fin counts tot,
  finalized_indices size uc n valid = Ok (fin, counts, tot) ->
  finalized_indices size uc (n + k) valid = Ok (fin, counts ++ repeat 0 k, tot).
Proof.
  intros P size uc n k valid fin counts tot E. unfold finalized_indices in *. apply omap_ok in E. destruct E as (st & E & Q).
  rewrite repeat_app.
  pose (w := fun st : list Z * nat * list nat => (fst st, snd st ++ repeat 0 k)).
  match type of E with ofold ?f ?xs ?a0 = _ => assert (G : ofold f xs (w a0) = Ok (w st)) end.
  { refine (ofold_sim _ _ w _ _ _ _ E). intros a x a' _ E1. apply obind_ok in E1. destruct E1 as (r & R1 & R2).
    apply omap_ok in R2. destruct R2 as (cs & R2 & R3). subst a'. change (fst (w a)) with (fst a). rewrite R1. cbn [obind].
    match type of R2 with ofold ?f ?xs ?a0 = _ => assert (G : ofold f xs (a0 ++ repeat 0 k) = Ok (cs ++ repeat 0 k)) end.
    { refine (ofold_sim _ _ (fun c => c ++ repeat 0 k) _ _ _ _ R2). intros b h b' _ EE. destruct (negb (h_conj h)).
      - apply obind_ok in EE. destruct EE as (c & C1 & C2). injection C2 as <-. rewrite (aget_app1 _ _ _ _ C1). cbn [obind].
        rewrite upd_app1 by (eapply aget_lt; eauto). reflexivity.
      - injection EE as <-. reflexivity. }
    change (snd (w a)) with (snd a ++ repeat 0 k). rewrite G. reflexivity. }
  unfold w at 1 in G. cbn [fst snd] in G. rewrite G. unfold omap. cbn [obind]. destruct st as [[f t] c]. cbn in *. injection Q as -> -> ->. reflexivity.
Qed.

Lemma add_neighbor_hops_widen : forall k fin index nb hb hb', add_neighbor_hops fin index nb hb = Ok hb' ->
  add_neighbor_hops fin index nb (widen k hb) = Ok (widen k hb').
Proof.
  intros k fin index nb hb hb' E. unfold add_neighbor_hops in *. refine (ofold_sim _ _ (widen k) _ _ _ _ E).
  intros a x a' _ H. apply obind_ok in H. destruct H as (ni & H1 & H2). rewrite H1. cbn [obind].
  destruct (ni <? 0)%Z; [injection H2 as <-; auto|]. destruct (negb (h_conj (snd x))); [apply hb_add_widen; auto|injection H2 as <-; auto].
Qed.

Lemma populate_widen : forall {P} (dflt : P) size uc n k fpos valid p d h, populate_system dflt size uc n fpos valid = Ok (p, d, h) ->
  populate_system dflt size uc (n + k) fpos valid = Ok (p, d, widen k h).
Proof.
  intros P dflt size uc n k fpos valid p d h E. unfold populate_system in *. apply obind_ok in E. destruct E as ([[fin cs] tot] & E1 & E2).
  rewrite (finalized_widen _ _ _ k _ _ _ _ E1). cbn [obind fst snd] in *. apply obind_ok in E2. destruct E2 as (st & E2 & E3).
  rewrite hb_new_widen.
  pose (w := fun st : list P * rle * hblocks => (fst st, widen k (snd st))).
  assert (S : ofold (populate_step size uc fin fpos) (all_sites size (length uc)) (w (repeat dflt tot, [], hb_new tot n)) = Ok (w st)).
  { refine (ofold_sim _ _ w _ _ _ _ E2). intros a x a' _ H. unfold populate_step in *. apply obind_ok in H. destruct H as (i & H1 & H2).
    rewrite H1. cbn [obind]. destruct (i <? 0)%Z; [injection H2 as <-; auto|].
    apply obind_ok in H2. destruct H2 as (q & H2 & H3). rewrite H2. cbn [obind].
    apply obind_ok in H3. destruct H3 as (ps & H3 & H4). unfold w at 1. cbn [fst snd]. rewrite H3. cbn [obind].
    apply obind_ok in H4. destruct H4 as (u & H4 & H5). rewrite H4. cbn [obind].
    apply obind_ok in H5. destruct H5 as (nb & H5 & H6). rewrite H5. cbn [obind].
    apply obind_ok in H6. destruct H6 as (hb & H6 & H7). unfold w at 1. cbn [snd]. rewrite (add_neighbor_hops_widen k _ _ _ _ _ H6). cbn [obind]. injection H7 as <-. reflexivity. }
  unfold w at 1 in S. cbn [fst snd] in S. unfold rle in *. rewrite S. cbn [obind]. unfold w. cbn [fst snd].
  destruct (rle_verify (snd (fst st)) tot); [|discriminate]. injection E3 as ->. reflexivity.
Qed.

Definition widen_bound (k : nat) (b : boundary) : boundary := Bnd (b_shift b) (widen k (b_hops b)).
Lemma boundaries_widen : forall {P} size (uc : list (usite P)) n k s fin tot bs, populate_boundaries size uc n s fin tot = Ok bs ->
  populate_boundaries size uc (n + k) s fin tot = Ok (map (widen_bound k) bs).
Proof.
  intros P size uc n k s fin tot bs E. unfold populate_boundaries in *. refine (ofold_sim _ _ (map (widen_bound k)) _ _ _ _ E).
  intros a t a' _ H. apply omap_ok in H. destruct H as (hb & H1 & ->). rewrite hb_new_widen.
  assert (G : ofold (boundary_step size uc fin (tr_shift t)) (slice_sites size (length uc) (tr_slice t)) (widen k (hb_new tot n)) = Ok (widen k hb)).
  { refine (ofold_sim _ _ (widen k) _ _ _ _ H1). intros b x b' _ EE. unfold boundary_step in *. apply obind_ok in EE. destruct EE as (i & E1 & E2).
    rewrite E1. cbn [obind]. destruct (i <? 0)%Z; [injection E2 as <-; auto|]. apply obind_ok in E2. destruct E2 as (nb & E2 & E3).
    rewrite E2. cbn [obind]. apply add_neighbor_hops_widen; auto. }
  rewrite G. unfold omap. cbn [obind]. rewrite nnz_widen.
  destruct (0 <? hb_nnz hb); [rewrite map_app; reflexivity|reflexivity].
Qed.

Lemma in_stored_widen : forall k h f c, In (f, c) (stored (widen k h)) <-> In (f, c) (stored h).
Proof.
  intros k h f c. rewrite !in_stored_iff. unfold widen. cbn [hb_blocks]. destruct (Nat.lt_ge_cases f (length (hb_blocks h))) as [H|H].
  - rewrite app_nth1 by auto. tauto.
  - rewrite app_nth2 by auto. rewrite (nth_overflow (hb_blocks h)) by auto.
    assert (nth (f - length (hb_blocks h)) (repeat (@nil (nat * nat)) k) [] = []) as ->; [|tauto].
    apply nth_repeat.
Qed.
Lemma stored_widen : forall k h, stored (widen k h) = stored h.
Proof.
  intros k h. unfold stored, widen. cbn [hb_blocks]. rewrite app_length, seq_app, repeat_length.
  assert (C : forall {A B} (l1 : list A) (m1 : list B) l2 m2, length l1 = length m1 -> combine (l1 ++ l2) (m1 ++ m2) = combine l1 m1 ++ combine l2 m2).
  { intros A B. induction l1 as [|x l1 IH]; intros [|y m1] l2 m2 L; cbn in *; try lia; auto. f_equal. apply IH. lia. }
  rewrite C by apply seq_length. rewrite flat_map_app. cbn [plus].
  assert (Z : forall n, flat_map (fun fb : nat * list (nat * nat) => map (fun c => (fst fb, c)) (snd fb)) (combine (seq n k) (repeat [] k)) = []).
  { induction k as [|m IH]; intros n; cbn; auto. }
  rewrite Z, app_nil_r. reflexivity.
Qed.
