(* The collectors, fed with the exact vectors, store the Chebyshev moments; reordering of vectors
   and operators; the calculations of KpmCore.v end to end. *)
From Verif Require Import Base Scalar Kpm KpmSpec KpmVec KpmLoops KpmMoments KpmReorder KpmOptimized KpmCheb KpmCore.
From Coq Require Import Ring Permutation.

(** Filling an array position by position. *)
Section Fold.
  Variable A : Type.
  Variable f : nat -> A.
  Lemma fold_upd_length : forall k s (c : list A), length (fold_left (fun c n => upd c n (f n)) (seq s k) c) = length c.
  Proof. induction k as [|k IH]; intros s c; [reflexivity|]. cbn [seq fold_left]. rewrite IH, upd_length. reflexivity. Qed.
  Lemma nth_fold_upd : forall k s (c : list A) j d, s + k <= length c ->
    nth j (fold_left (fun c n => upd c n (f n)) (seq s k) c) d = if (s <=? j) && (j <? s + k) then f j else nth j c d.
  Proof.
    induction k as [|k IH]; intros s c j d H; cbn [seq fold_left].
    - destruct (Nat.leb_spec s j), (Nat.ltb_spec j (s + 0)); cbn; auto; lia.
    - rewrite IH by (rewrite upd_length; lia). rewrite nth_upd by lia.
      destruct (Nat.leb_spec (S s) j), (Nat.ltb_spec j (S s + k)), (Nat.leb_spec s j), (Nat.ltb_spec j (s + S k)), (Nat.eqb_spec s j);
        cbn; subst; auto; lia.
  Qed.
End Fold.

Lemma nth_map_seq : forall {A} (f : nat -> A) N i d, i < N -> nth i (map f (seq 0 N)) d = f i.
Proof.
  intros A f N i d Hi. rewrite (nth_indep _ d (f 0)) by (rewrite map_length, seq_length; auto).
  rewrite map_nth, seq_nth by auto. reflexivity.
Qed.

Section Run.
  Variable R : scalar.
  Variable half : R.
  Hypothesis Hhalf : (half + half)%k = k1.
  Add Ring Rring : (k_ring R).
  Local Open Scope k_scope.
  Local Notation csr := (list (list (nat * R))).

  (** ** Collectors *)

  (** The generic and unit collectors: element [n] of the result is [f n], moment zero halved. *)
  Lemma collect_all : forall (f : nat -> R) num, 2 <= num ->
    fold_left (fun c n => upd c n (f n)) (seq 2 (num - 2)) (upd (upd (repeat k0 num) 0 (f 0%nat * half)) 1 (f 1%nat))
    = map (fun n => halved half n (f n)) (seq 0 num).
  Proof.
    intros f num H. apply (nth_ext _ _ k0 k0).
    - rewrite fold_upd_length, !upd_length, repeat_length, map_length, seq_length. reflexivity.
    - rewrite fold_upd_length, !upd_length, repeat_length. intros j Hj. rewrite nth_map_seq by auto.
      rewrite nth_fold_upd by (rewrite !upd_length, repeat_length; lia).
      rewrite !nth_upd by (rewrite ?upd_length, repeat_length; lia).
      destruct j as [|[|j]]; cbn [halved].
      + cbn. ring.
      + reflexivity.
      + destruct (Nat.leb_spec 2 (S (S j))), (Nat.ltb_spec (S (S j)) (2 + (num - 2))); cbn [andb]; try lia. reflexivity.
  Qed.

  (** The diagonal collector: positions 2(n-1) and 2(n-1)+1 at step n. *)
  Lemma collect_diag : forall (f g : nat -> R) num m0 m1 mu, Nat.even num = true -> 2 <= num ->
    (forall n, 2 <= n -> n <= num / 2 -> (k1 + k1) * (f n - m0) = mu (2 * (n - 1))%nat) ->
    (forall n, 2 <= n -> n <= num / 2 -> (k1 + k1) * g n - m1 = mu (2 * (n - 1) + 1)%nat) ->
    dg_moments R (fold_left (fun c n => diag_collect R c n (f n) (g n)) (seq 2 (num / 2 - 1))
      (DiagState R (upd (upd (repeat k0 num) 0 m0) 1 m1) m0 m1))
    = m0 :: m1 :: map mu (seq 2 (num - 2)).
  Proof.
    intros f g num m0 m1 mu Hev Hnum Hf Hg. apply Nat.even_spec in Hev. destruct Hev as (p & Hp).
    assert (Ep : num / 2 = p) by (rewrite Hp, Nat.mul_comm; apply Nat.div_mul; lia). rewrite Ep in *.
    assert (G : forall k c, k <= p - 1 -> length c = num -> 
       exists c', fold_left (fun c n => diag_collect R c n (f n) (g n)) (seq 2 k) (DiagState R c m0 m1) = DiagState R c' m0 m1
        /\ length c' = num /\ forall j, j < num -> nth j c' k0 = if (2 <=? j) && (j <? 2 + 2 * k) then mu j else nth j c k0).
    { induction k as [|k IH]; intros c Hk Hc.
      - exists c. repeat split; auto. intros j Hj. destruct (Nat.leb_spec 2 j), (Nat.ltb_spec j (2 + 2 * 0)); cbn [andb]; auto. lia.
      - destruct (IH c ltac:(lia) Hc) as (c' & E & Hl & Hv). rewrite seq_S, fold_left_app, E. cbn [fold_left].
        unfold diag_collect. cbn [dg_moments dg_m0 dg_m1]. eexists. split; [reflexivity|].
        split; [rewrite !upd_length; auto|]. intros j Hj.
        rewrite !nth_upd by (rewrite ?upd_length; lia). rewrite Hf, Hg by lia.
        destruct (Nat.eqb_spec (2 * (2 + k - 1) + 1) j) as [<- |N1].
        { destruct (Nat.leb_spec 2 (2 * (2 + k - 1) + 1)), (Nat.ltb_spec (2 * (2 + k - 1) + 1) (2 + 2 * S k)); cbn [andb]; auto; lia. }
        destruct (Nat.eqb_spec (2 * (2 + k - 1)) j) as [<- |N2].
        { destruct (Nat.leb_spec 2 (2 * (2 + k - 1))), (Nat.ltb_spec (2 * (2 + k - 1)) (2 + 2 * S k)); cbn [andb]; auto; lia. }
        rewrite Hv by auto.
        destruct (Nat.leb_spec 2 j), (Nat.ltb_spec j (2 + 2 * k)), (Nat.ltb_spec j (2 + 2 * S k)); cbn [andb]; auto; lia. }
    destruct (G (p - 1)%nat (upd (upd (repeat k0 num) 0 m0) 1 m1) ltac:(lia) ltac:(rewrite !upd_length, repeat_length; auto)) as (c' & E & Hl & Hv).
    rewrite E. cbn [dg_moments]. apply (nth_ext _ _ k0 k0).
    - cbn [length]. rewrite map_length, seq_length, Hl. lia.
    - rewrite Hl. intros j Hj. rewrite Hv by auto. rewrite !nth_upd by (rewrite ?upd_length, repeat_length; lia).
      destruct j as [|[|j]]; [reflexivity|reflexivity|]. cbn [nth].
      destruct (Nat.leb_spec 2 (S (S j))), (Nat.ltb_spec (S (S j)) (2 + 2 * (p - 1))); cbn [andb]; try lia.
      rewrite <- (nth_map_seq (fun j => mu (S (S j))) (num - 2) j k0) by lia.
      f_equal. rewrite <- seq_shift, <- seq_shift, !map_map. reflexivity.
  Qed.

  (** ** Reordered vectors and operators *)
  Definition reorders (N : nat) (rm : list (option nat)) (pi : nat -> nat) : Prop :=
    (rm = [] /\ forall i, pi i = i) \/ rm = map (fun i => Some (pi i)) (seq 0 N).

  Lemma map_index_ok : forall N pi i, i < N -> map_index (map (fun i => Some (pi i)) (seq 0 N)) i = Ok (pi i).
  Proof.
    intros N pi i Hi. unfold map_index, aget.
    rewrite (nth_error_nth' _ None) by (rewrite map_length, seq_length; auto). rewrite nth_map_seq by auto. reflexivity.
  Qed.

  Lemma reorder_vec_ok : forall N rm pi v, renumbering N pi -> reorders N rm pi -> length v = N ->
    exists v', reorder_vec R rm v = Ok v' /\ length v' = N /\ forall i, i < N -> vec v' (pi i) = vec v i.
  Proof.
    intros N rm pi v Hpi [(-> & Hid)| ->] HL.
    { exists v. split; [reflexivity|]. split; [auto|]. intros i Hi. rewrite Hid. auto. }
    destruct N as [|N'].
    { exists v. split; [reflexivity|]. split; [auto|intros; lia]. }
    set (N := S N') in *. unfold reorder_vec.
    destruct (map (fun i => Some (pi i)) (seq 0 N)) as [|o rm'] eqn:Erm; [discriminate|]. rewrite <- Erm. clear Erm o rm'.
    assert (G : forall k, k <= N -> exists out, ofold (fun out i =>
             obind (map_index (map (fun i => Some (pi i)) (seq 0 N)) i) (fun j =>
             obind (aget v i) (fun x =>
             if j <? length out then Ok (upd out j x) else UB))) (seq 0 k) (repeat k0 N) = Ok out
             /\ length out = N /\ forall i, i < k -> vec out (pi i) = vec v i).
    { induction k as [|k IH]; intros Hk.
      - exists (repeat k0 N). split; [reflexivity|]. split; [apply repeat_length|]. intros; lia.
      - destruct (IH ltac:(lia)) as (out & E & Hl & Hv). rewrite seq_S, ofold_app, E. cbn [ofold obind Nat.add].
        rewrite map_index_ok by lia. cbn [obind]. rewrite aget_vec by lia. cbn [obind].
        destruct (Nat.ltb_spec (pi k) (length out)) as [Hlt|Hge]; [|assert (pi k < N) by (apply Hpi; lia); lia].
        cbn [obind]. eexists. split; [reflexivity|]. split; [rewrite upd_length; auto|].
        intros i Hi. rewrite vec_upd by auto. destruct (Nat.eqb_spec (pi i) (pi k)) as [E1|E1].
        + apply Hpi in E1; try lia. congruence.
        + apply Hv. assert (i <> k) by congruence. lia. }
    rewrite HL. destruct (G N ltac:(lia)) as (out & E & Hl & Hv). exists out. auto.
  Qed.

  Definition moved (pi : nat -> nat) (e : nat * R) : nat * R := (pi (fst e), snd e).

  Lemma reorder_csr_ok : forall N rm pi m, renumbering N pi -> reorders N rm pi -> in_range R m N ->
    exists m', reorder_csr R rm m = Ok m' /\ length m' = N
      /\ forall i, i < N -> Permutation (entries m' (pi i)) (map (moved pi) (entries m i)).
  Proof.
    intros N rm pi m Hpi [(-> & Hid)| ->] (HL & Hc).
    { exists m. split; [reflexivity|]. split; auto. intros i Hi. rewrite Hid.
      rewrite (map_ext (moved pi) (fun e => e)); [rewrite map_id; auto|]. intros (c & x). unfold moved. cbn. rewrite Hid. auto. }
    destruct N as [|N'].
    { exists m. split; [reflexivity|]. split; [auto|intros; lia]. }
    set (N := S N') in *. unfold reorder_csr.
    destruct (map (fun i => Some (pi i)) (seq 0 N)) as [|o rm'] eqn:Erm; [discriminate|]. rewrite <- Erm. clear Erm o rm'.
    set (RM := map (fun i => Some (pi i)) (seq 0 N)).
    set (body := fun r (out : csr) (e : nat * R) =>
               obind (map_index RM r) (fun r' =>
               obind (map_index RM (fst e)) (fun c' =>
               obind (aget out r') (fun row =>
               Ok (upd out r' (row_insert R (c', snd e) row)))))).
    assert (Grow : forall r es (out : csr), r < N -> length out = N -> (forall e, In e es -> fst e < N) ->
       exists out', ofold (body r) es out = Ok out' /\ length out' = N
        /\ Permutation (entries out' (pi r)) (map (moved pi) es ++ entries out (pi r))
        /\ (forall i, i <> pi r -> entries out' i = entries out i)).
    { intros r es. induction es as [|e es IH]; intros out Hr Ho He.
      - exists out. split; [reflexivity|]. split; auto.
      - cbn [ofold].
        assert (Hp : pi r < length out) by (rewrite Ho; apply Hpi; auto).
        assert (Eb : body r out e = Ok (upd out (pi r) (row_insert R (pi (fst e), snd e) (entries out (pi r))))).
        { unfold body, RM. rewrite map_index_ok, map_index_ok by (auto; apply He; left; auto). cbn [obind].
          rewrite aget_entries by auto. reflexivity. }
        rewrite Eb. cbn [obind].
        destruct (IH (upd out (pi r) (row_insert R (pi (fst e), snd e) (entries out (pi r)))) Hr ltac:(rewrite upd_length; auto)
                    ltac:(intros; apply He; right; auto)) as (out' & E & Hl & HP & Ho').
        exists out'. split; [exact E|]. split; auto. split.
        + rewrite HP. unfold entries at 1. rewrite nth_upd by auto. rewrite Nat.eqb_refl. rewrite row_insert_perm. cbn [map app].
          change (moved pi e) with (pi (fst e), snd e). rewrite <- Permutation_middle. reflexivity.
        + intros i Hi. rewrite Ho' by auto. unfold entries. rewrite nth_upd by auto. destruct (Nat.eqb_spec (pi r) i); congruence. }
    assert (G : forall k, k <= N -> exists out, ofold (fun out r =>
             obind (aget m r) (fun es =>
             ofold (body r) es out)) (seq 0 k) (repeat [] N) = Ok out
        /\ length out = N /\ (forall i, i < k -> Permutation (entries out (pi i)) (map (moved pi) (entries m i)))
        /\ (forall i, k <= i -> i < N -> entries out (pi i) = [])).
    { induction k as [|k IH]; intros Hk.
      - exists (repeat [] N). split; [reflexivity|]. split; [apply repeat_length|]. split; [intros; lia|].
        intros i _ _. unfold entries. apply nth_repeat.
      - destruct (IH ltac:(lia)) as (out & E & Hl & Hv & Hz). rewrite seq_S, ofold_app, E. cbn [ofold obind Nat.add].
        rewrite aget_entries by lia. cbn [obind].
        destruct (Grow k (entries m k) out ltac:(lia) Hl ltac:(intros; eapply Hc; eauto)) as (out' & E' & Hl' & HP & Ho').
        exists out'. rewrite E'. split; [reflexivity|]. split; auto. split.
        + intros i Hi. destruct (Nat.eq_dec i k) as [-> |Hne].
          * rewrite HP, (Hz k) by lia. rewrite app_nil_r. reflexivity.
          * rewrite Ho'; [apply Hv; lia|]. intros X. apply Hpi in X; try lia.
        + intros i H1 H2. rewrite Ho'; [apply Hz; lia|]. intros X. apply Hpi in X; try lia. }
    rewrite HL. destruct (G N ltac:(lia)) as (out & E & Hl & Hv & _). exists out. auto.
  Qed.

  (** [optimize] in both modes. *)
  Lemma optimize_ok : forall inv_a b N h reorder idx, wf_csr N h ->
    (reorder = true -> sym_pattern h /\ connected N h) ->
    0 < N -> ix_src idx <> [] -> ix_dest idx <> [] ->
    (forall i, In i (ix_src idx) -> i < N) -> (forall i, In i (ix_dest idx) -> i < N) ->
    exists oh pi, optimize R inv_a b h reorder idx = Ok oh /\ represents R inv_a b N h idx oh pi /\ reorders N (oh_reorder oh) pi.
  Proof.
    intros inv_a b N h reorder idx Hwf Hsc HN Hs0 Hd0 Hs Hd. destruct reorder.
    - destruct (Hsc eq_refl) as (Hsym & Hcon).
      destruct (create_reordered_ok R inv_a b N h idx Hwf Hsym Hcon Hs0 Hd0 Hs Hd) as (oh & pi & E & Hr & Erm & _).
      exists oh, pi. split; [exact E|]. split; auto. right. auto.
    - destruct (create_scaled_ok R inv_a b N h idx Hwf HN Hs Hd) as (oh & E & Hr & Erm).
      exists oh, (fun i => i). split; auto. split; auto. left. auto.
  Qed.

  (** ** Runs on an optimised matrix *)
  Section OnOptimized.
    Variable inv_a b : R.
    Variable N : nat.
    Variable h : csr.
    Variable idx : indices.
    Variable oh : optimized R.
    Variable pi : nat -> nat.
    Hypothesis Hrep : represents R inv_a b N h idx oh pi.
    Variable kr : kernel R.
    Hypothesis Hkr : kernel_ok R half kr (oh_matrix oh) N.
    Local Notation m := (oh_matrix oh).
    Local Notation X := (scaled_dense inv_a b (coef h)).
    Local Notation sm := (oh_map oh).

    Lemma oh_range : in_range R m N.
    Proof. destruct (rp_wf _ _ _ _ _ _ _ _ Hrep) as (HL & Hc & _). split; auto. Qed.
    Local Notation r1_of r0 := (r1_ref R half m N r0).
    Local Notation t r0 n := (tseq R m (vec r0) (vec (r1_of r0)) n).

    Lemma r1_at : forall r0 i, i < N -> vec (r1_of r0) i = act R m (vec r0) i * half.
    Proof. intros r0 i Hi. unfold r1_ref. rewrite vec_map by auto. reflexivity. Qed.

    (** The start vector lives on the source slices. *)
    Definition on_sources (opt : bool) (r0 : list R) : Prop :=
      opt = true -> forall i, i < N -> (sm_src sm < layer sm i)%nat -> vec r0 i = k0.
    Lemma on_sources_supported : forall opt r0, on_sources opt r0 -> supported R N sm opt (vec r0) (vec (r1_of r0)).
    Proof.
      intros opt r0 H Ho. split; [intros; apply H; auto|]. intros i Hi Hl. rewrite r1_at by auto.
      assert (E : act R m (vec r0) i = k0); [|rewrite E; ring].
      apply ksum_0. intros e He. destruct (rp_layered _ _ _ _ _ _ _ _ Hrep) as (_ & _ & _ & Hlay).
      destruct (Hlay i e Hi He) as (_ & Hx). rewrite H; auto; [ring| |lia]. apply oh_range in He. auto.
    Qed.

    (** Off-diagonal loops, any options. *)
    Lemma run_off : forall al (C : Type) collect num (c0 : C) r0, (al_inter al = true -> Nat.even num = true) -> 2 <= num ->
      length r0 = N -> on_sources (al_size al) r0 ->
      (forall c n v w, length v = N -> length w = N ->
         (forall i, i < N -> (al_size al = true -> layer sm i <= sm_dest sm) -> vec v i = vec w i) -> collect c n v = collect c n w) ->
      (if al_inter al then interleaved_off R kr sm (al_size al) C collect else basic_off R kr sm (al_size al) C collect)
        num c0 r0 (r1_of r0)
      = Ok (fold_left (fun c n => collect c n (map (t r0 n) (seq 0 N))) (seq 2 (num - 2)) c0).
    Proof.
      intros al C collect num c0 r0 Hev Hnum HL Hs Hcol.
      assert (L1 : length (r1_of r0) = N) by (unfold r1_ref; rewrite map_length, seq_length; auto).
      assert (B : basic_off R kr sm (al_size al) C collect num c0 r0 (r1_of r0)
               = Ok (fold_left (fun c n => collect c n (map (t r0 n) (seq 0 N))) (seq 2 (num - 2)) c0)).
      { apply (off_exact R half m N sm kr oh_range Hkr (rp_layered _ _ _ _ _ _ _ _ Hrep)); auto.
        apply on_sources_supported; auto. }
      destruct (al_inter al); auto.
      rewrite (interleaved_off_eq R half m N sm kr oh_range Hkr (rp_layered _ _ _ _ _ _ _ _ Hrep)); auto.
    Qed.

    (** Diagonal run. *)
    Lemma run_diag_ok : forall al num r0 v, (num - 2) mod 4 = 0 -> 2 <= num -> length r0 = N -> on_sources (al_size al) r0 ->
      (al_size al = true -> sm_src sm = sm_dest sm) -> hermitian N X -> (forall i, i < N -> vec r0 (pi i) = v i) ->
      run_diag R half kr sm al num r0 = Ok (map (fun n => halved half n (braket N v (cheb N X n) v)) (seq 0 num)).
    Proof.
      intros al num r0 v Hmod Hnum HL Hs Hsd HX Hv.
      assert (Hev : Nat.even num = true).
      { apply Nat.even_spec. exists (1 + 2 * ((num - 2) / 4))%nat. pose proof (Nat.div_mod (num - 2) 4 ltac:(lia)). lia. }
      destruct Hkr as (_ & _ & _ & Hr1). unfold run_diag. rewrite Hr1 by auto. cbn [obind].
      assert (L1 : length (r1_of r0) = N) by (unfold r1_ref; rewrite map_length, seq_length; auto).
      assert (B := diag_exact R half m N sm kr oh_range Hkr (rp_layered _ _ _ _ _ _ _ _ Hrep) (al_size al) (vec r0) (vec (r1_of r0))
                   _ (diag_collect R) num (diag_initial R half num r0 (r1_of r0)) r0 (r1_of r0)
                   (on_sources_supported _ _ Hs) Hsd Hev Hnum HL L1 ltac:(reflexivity) ltac:(reflexivity)).
      assert (I : (if al_inter al then interleaved_diag R kr sm (al_size al) _ (diag_collect R) else basic_diag R kr sm (al_size al) _ (diag_collect R))
                  num (diag_initial R half num r0 (r1_of r0)) r0 (r1_of r0)
                = basic_diag R kr sm (al_size al) _ (diag_collect R) num (diag_initial R half num r0 (r1_of r0)) r0 (r1_of r0)).
      { destruct (al_inter al); auto. apply (interleaved_diag_eq R half m N sm kr oh_range Hkr (rp_layered _ _ _ _ _ _ _ _ Hrep)); auto. }
      rewrite I, B. unfold omap. cbn [obind]. f_equal. unfold diag_initial.
      assert (Hcv : forall n i, i < N -> t r0 n (pi i) = cv R N X v n i).
      { apply (tseq_cv R half Hhalf inv_a b N h idx oh pi Hrep); auto. intros i Hi. apply r1_at; auto. }
      pose proof (rp_pi _ _ _ _ _ _ _ _ Hrep) as Hpi.
      assert (Hin : forall n n', ksum (fun i => kconj (t r0 n i) * t r0 n' i) (seq 0 N) = inner R N (cv R N X v n) (cv R N X v n')).
      { intros n n'. apply (inner_renumber R N pi); auto. }
      assert (H00 : ksum (fun i => kconj (vec r0 i) * vec r0 i) (seq 0 N) = inner R N v v) by apply (Hin 0 0).
      assert (H10 : ksum (fun i => kconj (vec (r1_of r0) i) * vec r0 i) (seq 0 N) = inner R N (cv R N X v 1) v) by apply (Hin 1 0).
      rewrite (collect_diag (fun n => ksum (fun i => kconj (t r0 (n - 1)%nat i) * t r0 (n - 1)%nat i) (seq 0 N))
                 (fun n => ksum (fun i => kconj (t r0 n i) * t r0 (n - 1)%nat i) (seq 0 N)) num (sq_norm R r0 * half) (dot R (r1_of r0) r0) (fun n => inner R N v (cv R N X v n)) Hev Hnum).
      - rewrite sq_norm_vec, (dot_vec R) by congruence. rewrite L1, HL.
        rewrite H00, H10. destruct num as [|[|num]]; try lia. cbn [seq map].
        rewrite Nat.sub_succ, Nat.sub_succ, Nat.sub_0_r. f_equal; [|f_equal].
        + cbn [halved]. rewrite <- inner_cheb. cbn [cv]. ring.
        + cbn [halved]. rewrite <- inner_cheb. apply (cv_self R N X HX 1).
        + apply map_ext_in. intros n Hn. apply in_seq in Hn. destruct n as [|n]; [lia|]. cbn [halved]. apply inner_cheb.
      - intros n H1 H2. rewrite Hin, sq_norm_vec, HL, H00. apply (diag_even R half Hhalf N X v (n - 1) HX).
      - intros n H1 H2. rewrite Hin, (dot_vec R), L1 by congruence. rewrite H10.
        replace n with (S (n - 1)) at 1 by lia. apply (diag_odd R N X v (n - 1) HX).
    Qed.

    (** Generic run (size option off). *)
    Definition op_matrix (op : option csr) : dmat R := match op with Some o => coef o | None => delta end.
    Definition op_moved (op op' : option csr) : Prop :=
      match op, op' with
      | None, None => True
      | Some o, Some o' => in_range R o N /\ length o' = N /\ forall i, i < N -> Permutation (entries o' (pi i)) (map (moved pi) (entries o i))
      | _, _ => False
      end.

    Lemma csr_mul_at : forall (o : csr) x i, i < length o -> vec (csr_mul R o x) i = act R o (vec x) i.
    Proof.
      intros o x i Hi. unfold csr_mul, vec. 
      rewrite (nth_indep _ k0 (ksum (fun e => snd e * nth (fst e) x k0) [])) by (rewrite map_length; auto).
      rewrite (map_nth (fun row => ksum (fun e => snd e * nth (fst e) x k0) row)). reflexivity.
    Qed.
    Lemma moved_mul : forall o o' x w i, op_moved (Some o) (Some o') -> i < N -> (forall j, j < N -> vec x (pi j) = w j) ->
      vec (csr_mul R o' x) (pi i) = ap R N (coef o) w i.
    Proof.
      intros o o' x w i (Hr & HL & HP) Hi Hx. rewrite csr_mul_at by (rewrite HL; apply (rp_pi _ _ _ _ _ _ _ _ Hrep); auto).
      rewrite <- (act_ap R o N w i) by (apply Hr). unfold act. rewrite (ksum_perm R _ _ _ (HP i Hi)), ksum_map.
      apply ksum_ext. intros e He. unfold moved. cbn [fst snd]. rewrite Hx; auto. eapply Hr; eauto.
    Qed.

    Lemma generic_value_ok : forall beta beta' op op' x w, length beta' = N -> (forall i, i < N -> vec beta' (pi i) = vec beta i) ->
      op_moved op op' -> length x = N -> (forall i, i < N -> vec x (pi i) = w i) ->
      generic_value R beta' op' x = inner R N (vec beta) (ap R N (op_matrix op) w).
    Proof.
      intros beta beta' op op' x w HL Hb Hop Hx Hw. unfold generic_value. pose proof (rp_pi _ _ _ _ _ _ _ _ Hrep) as Hpi.
      destruct op as [o|], op' as [o'|]; try contradiction.
      - rewrite dot_vec by (unfold csr_mul; rewrite map_length; destruct Hop as (_ & E & _); congruence). rewrite HL.
        apply (inner_renumber R N pi); auto. intros i Hi. apply moved_mul with (o := o); auto.
      - rewrite dot_vec by congruence. rewrite HL. apply (inner_renumber R N pi); auto.
        intros i Hi. cbn [op_matrix]. rewrite ap_delta; auto.
    Qed.

    Lemma run_generic_ok : forall al num beta beta' op op' r0 v, (al_inter al = true -> Nat.even num = true) -> 2 <= num ->
      length r0 = N -> al_size al = false -> (forall i, i < N -> vec r0 (pi i) = v i) ->
      length beta' = N -> (forall i, i < N -> vec beta' (pi i) = vec beta i) -> op_moved op op' ->
      run_generic R half kr sm al num beta' op' r0
      = Ok (map (fun n => halved half n (braket N (vec beta) (dmul N (op_matrix op) (cheb N X n)) v)) (seq 0 num)).
    Proof.
      intros al num beta beta' op op' r0 v Hev Hnum HL Hsz Hv Hb' Hb Hop. destruct Hkr as (_ & _ & _ & Hr1).
      assert (L1 : length (r1_of r0) = N) by (unfold r1_ref; rewrite map_length, seq_length; auto).
      unfold run_generic. rewrite Hr1 by auto. cbn [obind].
      rewrite (run_off al _ (generic_collect R beta' op') num _ r0 Hev Hnum HL); [|rewrite Hsz; discriminate|].
      2:{ intros c n x w Hx Hw Hxw. f_equal. apply vec_ext; [congruence|]. intros i Hi. apply Hxw; [lia|]. rewrite Hsz. discriminate. }
      f_equal. unfold generic_collect.
      assert (Hcv : forall n i, i < N -> t r0 n (pi i) = cv R N X v n i).
      { apply (tseq_cv R half Hhalf inv_a b N h idx oh pi Hrep); auto. intros i Hi. apply r1_at; auto. }
      pose proof (rp_pi _ _ _ _ _ _ _ _ Hrep) as Hpi.
      assert (Hval : forall n x, length x = N -> (forall i, i < N -> vec x i = t r0 n i) ->
         generic_value R beta' op' x = braket N (vec beta) (dmul N (op_matrix op) (cheb N X n)) v).
      { intros n x Hx Ht. rewrite (generic_value_ok beta beta' op op' x (cv R N X v n)); auto.
        - rewrite <- inner_braket. apply inner_ext; auto. intros i Hi. rewrite ap_dmul. apply ap_ext. intros j Hj. apply cv_cheb; auto.
        - intros i Hi. rewrite Ht by (apply Hpi; auto). apply Hcv; auto. }
      unfold generic_initial. rewrite (Hval 0 r0), (Hval 1 (r1_of r0)) by auto.
      rewrite <- (collect_all (fun n => braket N (vec beta) (dmul N (op_matrix op) (cheb N X n)) v) num Hnum).
      set (s0 := upd _ _ _). clearbody s0. clear - Hval. revert s0. generalize (seq 2 (num - 2)) as l.
      induction l as [|n l IH]; intros s0; [reflexivity|]. cbn [fold_left]. rewrite IH. f_equal. f_equal. apply Hval.
      - rewrite map_length, seq_length. auto.
      - intros i Hi. apply vec_map; auto.
    Qed.

    (** Unit vectors. *)
    Lemma run_units_ok : forall al num r0 v, (al_inter al = true -> Nat.even num = true) -> 2 <= num ->
      length r0 = N -> on_sources (al_size al) r0 -> (forall i, i < N -> vec r0 (pi i) = v i) ->
      (forall d, In d (ix_dest idx) -> d < N) ->
      run_units R half kr sm al num (ix_dest (oh_idx oh)) r0
      = Ok (map (fun d => map (fun n => halved half n (ap R N (cheb N X n) v d)) (seq 0 num)) (ix_dest idx)).
    Proof.
      intros al num r0 v Hev Hnum HL Hs Hv Hd. pose proof Hkr as (_ & _ & _ & Hr1).
      assert (L1 : length (r1_of r0) = N) by (unfold r1_ref; rewrite map_length, seq_length; auto).
      pose proof (rp_pi _ _ _ _ _ _ _ _ Hrep) as Hpi.
      unfold run_units. rewrite (rp_idx _ _ _ _ _ _ _ _ Hrep). cbn [ix_dest].
      assert (Hall : forallb (fun d => d <? length r0) (map pi (ix_dest idx)) = true).
      { apply forallb_forall. intros d Hin. apply in_map_iff in Hin. destruct Hin as (d' & <- & Hin). apply Nat.ltb_lt.
        rewrite HL. apply Hpi. auto. }
      rewrite Hall. cbn [negb]. rewrite Hr1 by auto. cbn [obind].
      rewrite (run_off al _ (unit_collect R (map pi (ix_dest idx))) num _ r0 Hev Hnum HL Hs).
      2:{ intros c n x w Hx Hw Hxw. unfold unit_collect. apply map_ext_in. intros (d & s) Hin. cbn [fst snd]. f_equal.
          apply in_combine_l in Hin. apply in_map_iff in Hin. destruct Hin as (d' & <- & Hin). apply (Hxw (pi d')).
          - apply Hpi; auto.
          - intros _. apply (rp_dest _ _ _ _ _ _ _ _ Hrep); auto. }
      f_equal.
      assert (Hcv : forall n i, i < N -> t r0 n (pi i) = cv R N X v n i).
      { apply (tseq_cv R half Hhalf inv_a b N h idx oh pi Hrep); auto. intros i Hi. apply r1_at; auto. }
      assert (G : forall l (F : nat -> list R),
         fold_left (fun c n => unit_collect R (map pi (ix_dest idx)) c n (map (t r0 n) (seq 0 N))) l (map F (ix_dest idx))
         = map (fun d => fold_left (fun c n => upd c n (t r0 n (pi d))) l (F d)) (ix_dest idx)).
      { induction l as [|n l IH]; intros F; [reflexivity|]. cbn [fold_left].
        assert (E : unit_collect R (map pi (ix_dest idx)) (map F (ix_dest idx)) n (map (t r0 n) (seq 0 N))
                    = map (fun d => upd (F d) n (t r0 n (pi d))) (ix_dest idx)).
        { unfold unit_collect. clear - Hd Hpi. induction (ix_dest idx) as [|d ds IHd]; [reflexivity|]. cbn [map combine fst snd].
          rewrite IHd by (intros; apply Hd; right; auto). f_equal. f_equal. apply (vec_map R). apply Hpi. apply Hd. left; auto. }
        rewrite E, (IH (fun d => upd (F d) n (t r0 n (pi d)))). reflexivity. }
      unfold unit_initial. rewrite map_map. rewrite (G _ (fun d => upd (upd (repeat k0 num) 0 (nth (pi d) r0 k0 * half)) 1 (nth (pi d) (r1_of r0) k0))).
      apply map_ext_in. intros d Hin. specialize (Hd d Hin).
      rewrite <- (collect_all (fun n => ap R N (cheb N X n) v d) num Hnum).
      assert (Ev : forall n, t r0 n (pi d) = ap R N (cheb N X n) v d) by (intros n; rewrite Hcv, cv_cheb by auto; reflexivity).
      rewrite <- (Ev 0%nat), <- (Ev 1). change (t r0 0 (pi d)) with (nth (pi d) r0 k0). change (t r0 1 (pi d)) with (nth (pi d) (r1_of r0) k0).
      set (s0 := upd _ _ _). clearbody s0. revert s0. generalize (seq 2 (num - 2)) as l.
      induction l as [|n l IH]; intros s0; [reflexivity|]. cbn [fold_left]. rewrite IH, Ev. reflexivity.
    Qed.
    (** Dense collector: row [n] holds the (renumbered) vector [op T_n v]. *)
    Lemma run_dense_ok : forall al num op op' r0 v, (al_inter al = true -> Nat.even num = true) -> 2 <= num ->
      length r0 = N -> al_size al = false -> (forall i, i < N -> vec r0 (pi i) = v i) -> op_moved op op' ->
      exists rows, run_dense R half kr sm al num op' r0 = Ok rows /\ length rows = num
        /\ forall n, n < num -> length (nth n rows []) = N
            /\ forall i, i < N -> vec (nth n rows []) (pi i) = halved half n (ap R N (op_matrix op) (ap R N (cheb N X n) v) i).
    Proof.
      intros al num op op' r0 v Hev Hnum HL Hsz Hv Hop. destruct Hkr as (_ & _ & _ & Hr1).
      assert (L1 : length (r1_of r0) = N) by (unfold r1_ref; rewrite map_length, seq_length; auto).
      unfold run_dense. rewrite Hr1 by auto. cbn [obind].
      rewrite (run_off al _ (dense_collect R op') num _ r0 Hev Hnum HL); [|rewrite Hsz; discriminate|].
      2:{ intros c n x w Hx Hw Hxw. f_equal. apply vec_ext; [congruence|]. intros i Hi. apply Hxw; [lia|]. rewrite Hsz. discriminate. }
      eexists. split; [reflexivity|]. unfold dense_collect.
      assert (Hcv : forall n i, i < N -> t r0 n (pi i) = cv R N X v n i).
      { apply (tseq_cv R half Hhalf inv_a b N h idx oh pi Hrep); auto. intros i Hi. apply r1_at; auto. }
      pose proof (rp_pi _ _ _ _ _ _ _ _ Hrep) as Hpi.
      assert (Hval : forall n x, length x = N -> (forall i, i < N -> vec x i = t r0 n i) ->
         length (dense_value R op' x) = N /\
         forall i, i < N -> vec (dense_value R op' x) (pi i) = ap R N (op_matrix op) (ap R N (cheb N X n) v) i).
      { intros n x Hx Ht.
        assert (Hx' : forall i, i < N -> vec x (pi i) = ap R N (cheb N X n) v i).
        { intros i Hi. rewrite Ht by (apply Hpi; auto). rewrite Hcv, cv_cheb by auto. reflexivity. }
        unfold dense_value. destruct op as [o|], op' as [o'|]; try contradiction.
        - split; [unfold csr_mul; rewrite map_length; apply Hop|]. intros i Hi. apply moved_mul; auto.
        - split; auto. intros i Hi. cbn [op_matrix]. rewrite ap_delta by auto. auto. }
      split; [rewrite fold_upd_length; unfold dense_initial; rewrite !upd_length, repeat_length; auto|].
      intros n Hn. rewrite nth_fold_upd by (unfold dense_initial; rewrite !upd_length, repeat_length; lia).
      unfold dense_initial. rewrite !nth_upd by (rewrite ?upd_length, repeat_length; lia).
      destruct n as [|[|n]]; cbn [halved].
      - cbn [Nat.leb andb Nat.eqb]. destruct (Hval 0 r0 HL ltac:(reflexivity)) as (Hl & Hv0). split; [rewrite map_length; auto|].
        intros i Hi. rewrite <- Hv0 by auto. unfold vec.
        rewrite (nth_indep _ k0 ((fun v => v * half) k0)) by (rewrite map_length, Hl; apply Hpi; auto).
        rewrite (map_nth (fun v => v * half)). ring.
      - cbn [Nat.leb andb Nat.eqb]. apply (Hval 1 (r1_of r0) L1 ltac:(reflexivity)).
      - destruct (Nat.leb_spec 2 (S (S n))), (Nat.ltb_spec (S (S n)) (2 + (num - 2))); cbn [andb]; try lia.
        apply (Hval (S (S n))); [rewrite map_length, seq_length; auto|]. intros i Hi. apply vec_map; auto.
    Qed.
  End OnOptimized.
End Run.
