(* The kernels on words of Simd.v compute the reference row action: one vector and a batch of vectors. *)
From Verif Require Import Base Scalar Kpm KpmEll KpmSpec KpmVec KpmEllProofs Simd SimdProofs.
From Coq Require Import Ring.

Lemma ofold_rel : forall {X Y I} (Rel : X -> Y -> Prop) (f : X -> I -> outcome X) (g : Y -> I -> outcome Y) (l : list I),
  (forall x y i, In i l -> Rel x y -> exists x' y', f x i = Ok x' /\ g y i = Ok y' /\ Rel x' y') ->
  forall x y, Rel x y -> exists x' y', ofold f l x = Ok x' /\ ofold g l y = Ok y' /\ Rel x' y'.
Proof.
  intros X Y I Rel f g. induction l as [|i l IH]; intros H x y Hr; [exists x, y; auto|].
  destruct (H x y i (or_introl eq_refl) Hr) as (x1 & y1 & E1 & E2 & H1). cbn [ofold]. rewrite E1, E2. cbn [obind].
  apply IH; auto. intros. apply H; auto. right; auto.
Qed.

Lemma repeat_map : forall {X} (x : X) n, map (fun _ : nat => x) (seq 0 n) = repeat x n.
Proof. intros X x n. generalize 0. induction n as [|n IH]; intros k; cbn; [|rewrite IH]; reflexivity. Qed.

Section WordKernels.
  Variables A R : scalar.
  Variable V : vectors A R.
  Hypothesis HV : vector_laws A R V.
  Add Ring RringW : (k_ring R).
  Add Ring AringW : (k_ring A).
  Local Open Scope k_scope.
  Notation q := (v_words V).
  Notation step := (v_step V).
  Notation fl := (flat A R V).

  Lemma flat_length : forall l, length (fl l) = (q * length l)%nat.
  Proof. intros. apply chunks_length. apply (vl_len _ _ _ HV). Qed.
  Lemma flat_load : forall l i k, (i + k <= length l)%nat -> load (fl l) (q * i) (q * k) = Ok (fl (map (vec l) (seq i k))).
  Proof.
    intros l i k H. unfold flat. rewrite (chunks_load _ q (vl_len _ _ _ HV)) by auto. rewrite (firstn_skipn_seq k0) by auto. reflexivity.
  Qed.
  Lemma flat_store : forall l i vs, (i + length vs <= length l)%nat -> store_at (fl l) (q * i) (fl vs) = Ok (fl (store R l i vs)).
  Proof. intros l i vs H. unfold flat. rewrite (chunks_store _ q (vl_len _ _ _ HV)) by auto. rewrite store_split by auto. reflexivity. Qed.
  Lemma flat_1 : forall s, fl [s] = v_put V s.
  Proof. intros. unfold flat. cbn. apply app_nil_r. Qed.
  Lemma read_ok : forall l i, i < length l -> read A R V (fl l) i = Ok (vec l i).
  Proof.
    intros l i H. unfold read. pose proof (flat_load l i 1 ltac:(lia)) as E. rewrite Nat.mul_1_r in E. rewrite E. unfold omap, obind. f_equal.
    cbn [seq map]. rewrite flat_1. apply (vl_get _ _ _ HV).
  Qed.
  Lemma write_ok : forall l i s, i < length l -> write A R V (fl l) i s = Ok (fl (upd l i s)).
  Proof. intros l i s H. unfold write. rewrite <- flat_1. rewrite flat_store by (cbn; lia). reflexivity. Qed.
  Lemma flat_neg : forall l, r_neg A (fl l) = fl (map kopp l).
  Proof.
    intros l. unfold r_neg, flat. induction l as [|a l IH]; [reflexivity|]. cbn [map concat]. rewrite map_app, IH, (vl_neg _ _ _ HV). reflexivity.
  Qed.
  Lemma lift2_app : forall f (a b c d : list A), length a = length c -> lift2 A f (a ++ b) (c ++ d) = lift2 A f a c ++ lift2 A f b d.
  Proof. intros f. unfold lift2. induction a as [|x a IH]; intros b [|y c] d H; cbn in H; try discriminate; [reflexivity|]. cbn. rewrite IH; auto. Qed.
  Lemma flat_add : forall {T} (f g : T -> R) l, lift2 A kadd (fl (map f l)) (fl (map g l)) = fl (map (fun t => f t + g t) l).
  Proof.
    intros T f g l. unfold flat. induction l as [|a l IH]; [reflexivity|]. cbn [map concat].
    rewrite lift2_app by (rewrite !(vl_len _ _ _ HV); auto). rewrite IH, (vl_add _ _ _ HV). reflexivity.
  Qed.
  Lemma lift2_diag : forall f (a : list A), lift2 A f a a = map (fun x => f x x) a.
  Proof. intros f. unfold lift2. induction a as [|x a IH]; cbn; [|rewrite IH]; reflexivity. Qed.
  Lemma total_app : forall a b : list A, total A (a ++ b) = total A a + total A b.
  Proof. intros. unfold total. apply ksum_app. Qed.
  Lemma total_add : forall a b : list A, length a = length b -> total A (lift2 A kadd a b) = total A a + total A b.
  Proof.
    unfold lift2, total. induction a as [|x a IH]; intros [|y b] H; cbn in H; try discriminate; [cbn; ring|]. injection H as H.
    cbn [combine map fst snd]. rewrite !ksum_cons, IH by auto. ring.
  Qed.
  Lemma norm_words : forall l, v_of_real V (total A (map (fun a => a * a) (fl l))) = ksum (fun s => kconj s * s) l.
  Proof.
    unfold flat. induction l as [|s l IH]; [apply (vl_real_0 _ _ _ HV)|]. cbn [map concat]. rewrite map_app, total_app, (vl_real_add _ _ _ HV), IH, (vl_norm _ _ _ HV).
    rewrite ksum_cons. reflexivity.
  Qed.
  Lemma lift2_length : forall f (a b : list A), length a = length b -> length (lift2 A f a b) = length a.
  Proof. intros f a b H. unfold lift2. rewrite map_length, combine_length. lia. Qed.
  Lemma total_zero : forall n, total A (repeat k0 n) = k0.
  Proof. intros n. apply ksum_0. intros a Ha. apply repeat_spec in Ha. auto. Qed.
  Lemma flat_zero : forall n, fl (repeat k0 n) = repeat k0 (q * n).
  Proof.
    unfold flat. induction n as [|n IH]; [rewrite Nat.mul_0_r; reflexivity|]. cbn [repeat map concat]. rewrite IH, (vl_zeros _ _ _ HV), <- repeat_app. f_equal. lia.
  Qed.

  Lemma unflat_ok : forall l, unflat A R V (length l) (fl l) = l.
  Proof.
    unfold flat. induction l as [|a l IH]; [reflexivity|]. cbn [length unflat map concat].
    rewrite firstn_app, skipn_app, (vl_len _ _ _ HV), Nat.sub_diag. cbn [firstn skipn]. rewrite app_nil_r, firstn_all2, skipn_all2 by (rewrite (vl_len _ _ _ HV); lia).
    rewrite (vl_get _ _ _ HV). cbn [app]. rewrite IH. reflexivity.
  Qed.
  Variable N : nat.
  Variable m : list (list (nat * R)).
  Variable e : ell R.
  Hypothesis Hm : length m = N.
  Hypothesis HF : Forall2 (padded R (el_nnz R e) N) m (el_rows R e).
  Notation nnz := (el_nnz R e).
  Notation El := (El R e).
  Notation next := (next R e).
  Let getE := el_get_ok R N m e Hm HF.
  Let Hs := vl_step _ _ _ HV.

  Lemma w_lane_ok : forall x y n row, length x = N -> length y = N -> row < N -> n < nnz -> w_lane A R V e (fl x) (fl y) n row = Ok (next x n row (vec y row)).
  Proof.
    intros x y n row Hx Hy Hr Hn. unfold w_lane. destruct (getE row n Hr Hn) as (E1 & E2). rewrite E1. cbn [obind].
    rewrite !read_ok by lia. reflexivity.
  Qed.
  Lemma column_get : forall n, n < nnz -> column R e n = Ok (map (fun r => El r n) (seq 0 N)).
  Proof.
    intros n Hn. unfold column. rewrite (rows_len R N m e Hm HF). apply lanes_ok. intros r Hr. apply in_seq in Hr. apply getE; lia.
  Qed.
  Lemma map_seq_nth : forall {T} (d : T) (f : nat -> T) i k, (i + k <= N)%nat -> map (fun r => nth r (map f (seq 0 N)) d) (seq i k) = map f (seq i k).
  Proof.
    intros T d f i k H. apply map_ext_in. intros r Hr. apply in_seq in Hr. rewrite (nth_indep _ d (f 0%nat)) by (rewrite map_length, seq_length; lia).
    rewrite map_nth, seq_nth by lia. reflexivity.
  Qed.
  Lemma w_register_ok : forall x y n row, length x = N -> length y = N -> (row + step <= N)%nat -> n < nnz ->
    w_register A R V e (fl x) (fl y) n row = Ok (fl (map (fun r => next x n r (vec y r)) (seq row step))).
  Proof.
    intros x y n row Hx Hy Hr Hn. unfold w_register. rewrite column_get by auto. cbn [obind]. rewrite !map_map.
    rewrite flat_load by (rewrite map_length, seq_length; lia). cbn [obind].
    rewrite (load_seq 0%nat) by (rewrite map_length, seq_length; lia). cbn [obind]. rewrite !map_seq_nth by auto.
    rewrite (vl_gather _ _ _ HV).
    2:{ rewrite map_length, seq_length. reflexivity. }
    2:{ intros i Hi. apply in_map_iff in Hi. destruct Hi as (r & <- & Hi). apply in_seq in Hi. rewrite Hx. apply (getE r n); lia. }
    cbn [obind]. rewrite flat_load by lia. cbn [obind]. unfold vec at 1. rewrite map_seq_nth by auto. rewrite map_map.
    destruct (Nat.eqb_spec n 0) as [->|Hn0].
    - rewrite flat_neg, map_map. rewrite (vl_madd _ _ _ HV) by (rewrite map_length, seq_length; reflexivity). rewrite zip3_map. reflexivity.
    - rewrite (vl_madd _ _ _ HV) by (rewrite map_length, seq_length; reflexivity). rewrite zip3_map. f_equal. f_equal. apply map_ext. intros r.
      unfold KpmEllProofs.next. destruct (Nat.eqb_spec n 0); [lia|reflexivity].
  Qed.

  Definition same_vec (yw : list A) (y : list R) : Prop := yw = fl y /\ length y = N.
  Lemma w_scalar_sim : forall x n yw y row, length x = N -> n < nnz -> row < N -> same_vec yw y ->
    exists yw' y', w_scalar A R V e (fl x) n yw row = Ok yw' /\ scalar_step R e x n y row = Ok y' /\ same_vec yw' y'.
  Proof.
    intros x n yw y row Hx Hn Hr (-> & Hy). unfold w_scalar, scalar_step. rewrite w_lane_ok, (lane_ok R N m e Hm HF step Hs) by auto. unfold omap. cbn [obind].
    rewrite write_ok by lia. eexists. eexists. split; [reflexivity|]. split; [reflexivity|]. split; [reflexivity|]. rewrite upd_length. auto.
  Qed.
  Lemma w_vector_sim : forall x n yw y row, length x = N -> n < nnz -> (row + step <= N)%nat -> same_vec yw y ->
    exists yw' y', w_vector A R V e (fl x) n yw row = Ok yw' /\ vector_step R e x step n y row = Ok y' /\ same_vec yw' y'.
  Proof.
    intros x n yw y row Hx Hn Hr (-> & Hy). unfold w_vector, vector_step. rewrite w_register_ok by auto.
    rewrite (lanes_ok _ (fun r => next x n r (vec y r))) by (intros r Hi; apply in_seq in Hi; apply (lane_ok R N m e Hm HF step Hs); auto; lia).
    unfold omap. cbn [obind]. rewrite flat_store by (rewrite map_length, seq_length; lia).
    eexists. eexists. split; [reflexivity|]. split; [reflexivity|]. split; [reflexivity|].
    rewrite (store_ok R N) by (auto; lia). apply upd_rows_length.
  Qed.
  Lemma vec_rows_in : forall sp stop row, (sp_peel sp + vec_count step sp * step <= stop)%nat -> In row (vec_rows step sp) -> (row + step <= stop)%nat.
  Proof. intros sp stop row H Hi. unfold vec_rows in Hi. apply in_map_iff in Hi. destruct Hi as (k & <- & Hk). apply in_seq in Hk. nia. Qed.

  Section OnSplit.
    Variables (s e' : nat) (sp : split) (k : nat).
    Hypothesis He : e' <= N.
    Hypothesis P1 : s <= sp_peel sp.
    Hypothesis P2 : vec_count step sp = k.
    Hypothesis P3 : (sp_peel sp + k * step <= e')%nat.
    Hypothesis P4 : peel_rows s sp = seq s (sp_peel sp - s).
    Hypothesis P5 : rest_rows step e' sp = seq (sp_peel sp + k * step)%nat (e' - (sp_peel sp + k * step))%nat.
    Lemma w_pass_sim : forall x n yw y, length x = N -> n < nnz -> same_vec yw y ->
      exists yw' y', w_pass A R V e (fl x) s e' sp n yw = Ok yw' /\ column_pass R e x step s e' sp n y = Ok y' /\ same_vec yw' y'.
    Proof.
      intros x n yw y Hx Hn H0. unfold w_pass, column_pass. rewrite P4, P5.
      destruct (ofold_rel same_vec (w_scalar A R V e (fl x) n) (scalar_step R e x n) (seq s (sp_peel sp - s))) with (x := yw) (y := y) as (y1 & z1 & E1 & F1 & H1); auto.
      { intros a b i Hi Hab. apply in_seq in Hi. apply w_scalar_sim; auto. nia. }
      rewrite E1, F1. cbn [obind].
      destruct (ofold_rel same_vec (w_vector A R V e (fl x) n) (vector_step R e x step n) (vec_rows step sp)) with (x := y1) (y := z1) as (y2 & z2 & E2 & F2 & H2); auto.
      { intros a b i Hi Hab. apply w_vector_sim; auto. apply (vec_rows_in sp N i); auto. rewrite P2. lia. }
      rewrite E2, F2. cbn [obind].
      apply (ofold_rel same_vec); auto. intros a b i Hi Hab. apply in_seq in Hi. apply w_scalar_sim; auto. lia.
    Qed.
    Lemma w_columns_sim : forall x c yw y, length x = N -> c <= nnz -> same_vec yw y ->
      exists yw' y', ofold (fun y n => w_pass A R V e (fl x) s e' sp n y) (seq 0 c) yw = Ok yw'
        /\ ofold (fun y n => column_pass R e x step s e' sp n y) (seq 0 c) y = Ok y' /\ same_vec yw' y'.
    Proof. intros x c yw y Hx Hc H0. apply (ofold_rel same_vec); auto. intros a b i Hi Hab. apply in_seq in Hi. apply w_pass_sim; auto. lia. Qed.
  End OnSplit.

  Hypothesis Hnnz : 0 < nnz.
  Lemma w_spmv_ok : forall aligned s e' x y, length x = N -> length y = N -> s <= e' -> e' <= N ->
    w_spmv A R V aligned 0 e s e' (fl x) (fl y) = Ok (fl (spmv_ref R m N s e' x y)).
  Proof.
    intros al s e' x y Hx Hy H1 H2. destruct (split_ok al step s e' Hs H1) as (sp & k & E & P1 & P2 & P3 & P4 & P5).
    pose proof (simd_ok R N m e Hm HF al step Hs Hnnz s e' x y Hx Hy H1 H2) as G. unfold ell_spmv_simd in G. unfold w_spmv. rewrite E in *. rewrite Nat.sub_0_r in *.
    destruct (w_columns_sim s e' sp k H2 P1 P2 P3 P4 P5 x nnz (fl y) y) as (yw & y' & E1 & E2 & (-> & _)); auto; [split; auto|].
    rewrite G in E2. injection E2 as <-. exact E1.
  Qed.

  Definition same_state (a : list A * R * R) (b : list R * R * R) : Prop := same_vec (fst (fst a)) (fst (fst b)) /\ snd (fst a) = snd (fst b) /\ snd a = snd b.
  Lemma w_scalar_fused_sim : forall x n a b row, length x = N -> n < nnz -> row < N -> same_state a b ->
    exists a' b', w_scalar_fused A R V e (fl x) n a row = Ok a' /\ scalar_fused R e x n b row = Ok b' /\ same_state a' b'.
  Proof.
    intros x n [[yw m2] m3] [[y n2] n3] row Hx Hn Hr ((E & Hy) & E2 & E3). cbn [fst snd] in *. subst. unfold w_scalar_fused, scalar_fused.
    rewrite w_lane_ok, (lane_ok R N m e Hm HF step Hs) by auto. cbn [obind]. rewrite read_ok, aget_vec by lia. cbn [obind]. rewrite write_ok by lia. cbn [obind].
    rewrite (vl_square _ _ _ HV). eexists. eexists. split; [reflexivity|]. split; [reflexivity|]. split; [|split; reflexivity]. split; [reflexivity|]. cbn [fst]. rewrite upd_length. auto.
  Qed.
  Definition same_registers (a : list A * list A * list A) (b : list R * list R * list R) : Prop :=
    match a, b with (yw, w2, w3), (y, v2, v3) =>
      same_vec yw y /\ length w2 = (q * step)%nat /\ length v2 = step /\ v_of_real V (total A w2) = reduce_add R v2 /\ w3 = fl v3 /\ length v3 = step end.
  Lemma add_lanes : forall (v : list R) l, length v = length l ->
    reduce_add R (map (fun p => fst p + kconj (snd p) * snd p) (combine v l)) = reduce_add R v + ksum (fun s => kconj s * s) l.
  Proof.
    unfold reduce_add. induction v as [|a v IH]; intros [|b l] H; cbn in H; try discriminate; [cbn; ring|]. injection H as H.
    cbn [combine map fst snd]. rewrite !ksum_cons, IH by auto. ring.
  Qed.
  Lemma zip_conj : forall c a b : list R, zip3 (fun a b c => kconj a * b + c) a b c = map (fun p => fst p + kconj (fst (snd p)) * snd (snd p)) (combine c (combine a b)).
  Proof. induction c as [|x c IH]; intros [|y a] [|z b]; cbn; auto. rewrite IH. f_equal. ring. Qed.
  Lemma w_vector_fused_sim : forall x n a b row, length x = N -> n < nnz -> (row + step <= N)%nat -> same_registers a b ->
    exists a' b', w_vector_fused A R V e (fl x) n a row = Ok a' /\ vector_fused R e x step n b row = Ok b' /\ same_registers a' b'.
  Proof.
    intros x n [[yw w2] w3] [[y v2] v3] row Hx Hn Hr ((-> & Hy) & L2 & L2' & S2 & -> & L3). unfold w_vector_fused, vector_fused.
    rewrite w_register_ok by auto. cbn [obind]. rewrite flat_load by lia. cbn [obind]. rewrite flat_store by (rewrite map_length, seq_length; lia). cbn [obind].
    rewrite (lanes_ok _ (fun r => next x n r (vec y r))) by (intros r Hi; apply in_seq in Hi; apply (lane_ok R N m e Hm HF step Hs); auto; lia). cbn [obind].
    rewrite (lanes_ok _ (vec x)) by (intros r Hi; apply in_seq in Hi; apply aget_vec; lia). cbn [obind].
    eexists. eexists. split; [reflexivity|]. split; [reflexivity|]. cbn beta iota.
    assert (L : length (fl (map (vec x) (seq row step))) = (q * step)%nat) by (rewrite flat_length, map_length, seq_length; reflexivity).
    split; [split; [reflexivity|rewrite (store_ok R N) by (auto; lia); apply upd_rows_length]|].
    rewrite lift2_diag. split; [rewrite lift2_length; rewrite ?map_length; lia|].
    split; [rewrite map_length, combine_length, map_length, seq_length; lia|].
    split; [rewrite total_add by (rewrite map_length; lia); rewrite (vl_real_add _ _ _ HV), S2, norm_words, add_lanes by (rewrite map_length, seq_length; auto); reflexivity|].
    rewrite (vl_cmadd _ _ _ HV) by (rewrite ?map_length, ?seq_length; auto). rewrite zip_conj.
    split; [reflexivity|]. rewrite map_length, !combine_length, !map_length, !seq_length. lia.
  Qed.
  Lemma w_diag_ok : forall aligned s e' x y m2 m3, length x = N -> length y = N -> s <= e' -> e' <= N ->
    w_diag A R V aligned e s e' (fl x) (fl y) m2 m3
    = Ok (fl (spmv_ref R m N s e' x y), m2 + sum_rows R s e' (fun i => kconj (vec x i) * vec x i),
          m3 + sum_rows R s e' (fun i => kconj (vec (spmv_ref R m N s e' x y) i) * vec x i)).
  Proof.
    intros al s e' x y m2 m3 Hx Hy H1 H2. destruct (split_ok al step s e' Hs H1) as (sp & k & E & P1 & P2 & P3 & P4 & P5).
    pose proof (simd_diag_ok R N m e Hm HF al step Hs Hnnz s e' x y m2 m3 Hx Hy H1 H2) as G. unfold ell_diag_simd, ell_spmv_simd in G. unfold w_diag, w_spmv. rewrite E in *.
    destruct (w_columns_sim s e' sp k H2 P1 P2 P3 P4 P5 x (nnz - 1)%nat (fl y) y) as (yw & y' & E1 & E2 & Hv); auto; [lia|split; auto|].
    rewrite E1. rewrite E2 in G. cbn [obind] in *. clear E1 E2.
    assert (Hx' : exists n, nnz = S n) by (exists (nnz - 1)%nat; lia). destruct Hx' as (n & En). rewrite En in G |- *.
    destruct (ofold_rel same_state (w_scalar_fused A R V e (fl x) n) (scalar_fused R e x n) (peel_rows s sp)) with (x := (yw, m2, m3)) (y := (y', m2, m3))
      as ([[y1 a2] a3] & [[z1 b2] b3] & E1 & F1 & Hv1).
    { intros a b i Hi Hab. rewrite P4 in Hi. apply in_seq in Hi. apply w_scalar_fused_sim; auto; nia. }
    { split; [exact Hv|split; reflexivity]. }
    destruct Hv1 as (V1 & V2 & V3). cbn [fst snd] in V1, V2, V3. subst b2 b3.
    rewrite E1. rewrite F1 in G. cbn [obind] in *. clear E1 F1.
    destruct (ofold_rel same_registers (w_vector_fused A R V e (fl x) n) (vector_fused R e x step n) (vec_rows step sp))
      with (x := (y1, repeat (k0 : A) (q * step)%nat, repeat (k0 : A) (q * step)%nat)) (y := (z1, repeat (k0 : R) step, repeat (k0 : R) step)) as ([[y2 w2] w3] & [[z2 v2] v3] & E2 & F2 & Hv2).
    { intros a b i Hi Hab. apply w_vector_fused_sim; auto; [lia|]. apply (vec_rows_in sp N i); auto. rewrite P2. lia. }
    { split; [exact V1|]. rewrite !repeat_length. split; [reflexivity|]. split; [reflexivity|].
      split; [|split; [symmetry; apply flat_zero|reflexivity]]. rewrite total_zero, (vl_real_0 _ _ _ HV). symmetry. apply ksum_0. intros a Ha. apply repeat_spec in Ha. auto. }
    rewrite E2. rewrite F2 in G. cbn [obind] in *. clear E2 F2. destruct Hv2 as (W1 & _ & _ & W2 & -> & _).
    destruct (ofold_rel same_state (w_scalar_fused A R V e (fl x) n) (scalar_fused R e x n) (rest_rows step e' sp)) with (x := (y2, a2, a3)) (y := (z2, a2, a3))
      as ([[y3 c2] c3] & [[z3 d2] d3] & E3 & F3 & Hv3).
    { intros a b i Hi Hab. rewrite P5 in Hi. apply in_seq in Hi. apply w_scalar_fused_sim; auto; lia. }
    { split; [exact W1|split; reflexivity]. }
    destruct Hv3 as ((V1' & _) & V2 & V3). cbn [fst snd] in V1', V2, V3. subst y3 d2 d3.
    rewrite E3. rewrite F3 in G. cbn [obind] in *. rewrite W2, (vl_total _ _ _ HV).
    injection G as G1 G2 G3. rewrite <- G2. unfold reduce_add in G3. rewrite G3. subst z3. reflexivity.
  Qed.

  (** ** Batches *)
  Definition batch (ys : nat -> list R) : list R := concat (map (fun i => map (fun j => vec (ys j) i) (seq 0 step)) (seq 0 N)).
  Let row_of (ys : nat -> list R) (i : nat) : list R := map (fun j => vec (ys j) i) (seq 0 step).
  Lemma row_of_length : forall ys i, length (row_of ys i) = step.
  Proof. intros. unfold row_of. rewrite map_length, seq_length. reflexivity. Qed.
  Lemma batch_length : forall ys, length (batch ys) = (step * N)%nat.
  Proof. intros. unfold batch. rewrite (chunks_length _ step (row_of_length ys)), seq_length. reflexivity. Qed.
  Lemma batch_ext : forall xs ys, (forall j i, j < step -> i < N -> vec (xs j) i = vec (ys j) i) -> batch xs = batch ys.
  Proof.
    intros xs ys H. unfold batch. f_equal. apply map_ext_in. intros i Hi. apply in_seq in Hi. apply map_ext_in. intros j Hj. apply in_seq in Hj. apply H; lia.
  Qed.
  Lemma batch_row : forall ys i, i < N -> map (vec (batch ys)) (seq (step * i) step) = row_of ys i.
  Proof.
    intros ys i Hi. transitivity (firstn step (skipn (step * i) (batch ys))); [symmetry; apply (firstn_skipn_seq k0); rewrite batch_length; nia|].
    pose proof (chunks_load (row_of ys) step (row_of_length ys) (seq 0 N) i 1 ltac:(rewrite seq_length; lia)) as E. unfold load in E.
    rewrite Nat.mul_1_r in E. change (concat (map (row_of ys) (seq 0 N))) with (batch ys) in E. rewrite batch_length in E.
    destruct (Nat.leb_spec (step * i + step) (step * N)) as [_|]; [|discriminate].
    rewrite (firstn_skipn_seq 0%nat 1 i) in E by (rewrite seq_length; lia). cbn [seq map concat] in E. rewrite seq_nth, app_nil_r in E by lia.
    injection E as E. exact E.
  Qed.
  Lemma batch_load : forall ys i, i < N -> load (fl (batch ys)) (q * (i * step)) (q * step) = Ok (fl (row_of ys i)).
  Proof.
    intros ys i Hi. rewrite (Nat.mul_comm i step). rewrite flat_load by (rewrite batch_length; nia). rewrite batch_row by auto. reflexivity.
  Qed.
  Lemma batch_store : forall ys i v, i < N -> (forall j, j < step -> length (ys j) = N) ->
    store_at (fl (batch ys)) (q * (i * step)) (fl (map v (seq 0 step))) = Ok (fl (batch (fun j => upd (ys j) i (v j)))).
  Proof.
    intros ys i v Hi Hy. rewrite (Nat.mul_comm i step). rewrite flat_store by (rewrite batch_length, map_length, seq_length; nia). f_equal. f_equal.
    rewrite store_split by (rewrite batch_length, map_length, seq_length; nia). rewrite map_length, seq_length.
    assert (Ef : firstn (step * i) (batch ys) = concat (map (row_of ys) (firstn i (seq 0 N)))) by apply (chunks_first _ step (row_of_length ys)).
    assert (Es : skipn (step * i + step) (batch ys) = concat (map (row_of ys) (skipn (S i) (seq 0 N)))).
    { replace (step * i + step)%nat with (step * S i)%nat by lia. apply (chunks_skip _ step (row_of_length ys)). }
    rewrite Ef, Es.
    assert (Eq : seq 0 N = firstn i (seq 0 N) ++ i :: skipn (S i) (seq 0 N)).
    { pose proof (upd_split (seq 0 N) i i ltac:(rewrite seq_length; lia)) as E. rewrite (Nat.add_comm i 1) in E. cbn [app] in E. etransitivity; [|exact E].
      apply (nth_ext _ _ 0%nat 0%nat); [rewrite upd_length; auto|]. intros k Hk. rewrite nth_upd by (rewrite seq_length; lia).
      destruct (Nat.eqb_spec i k) as [<-|]; [|reflexivity]. rewrite seq_nth by lia. reflexivity. }
    assert (Es1 : seq 0 N = seq 0 i ++ i :: seq (S i) (N - S i)).
    { replace N with (i + S (N - S i))%nat at 1 by lia. rewrite seq_app. reflexivity. }
    assert (Hf : forall r, In r (firstn i (seq 0 N)) -> r <> i).
    { intros r Hr. rewrite Es1, firstn_app, seq_length, Nat.sub_diag in Hr. cbn [firstn] in Hr. rewrite app_nil_r, firstn_all2 in Hr by (rewrite seq_length; lia).
      apply in_seq in Hr. lia. }
    assert (Hg : forall r, In r (skipn (S i) (seq 0 N)) -> r <> i).
    { intros r Hr. rewrite Es1, skipn_app, seq_length, skipn_all2 in Hr by (rewrite seq_length; lia). replace (S i - i)%nat with 1%nat in Hr by lia. cbn [skipn app] in Hr.
      apply in_seq in Hr. lia. }
    etransitivity; [|symmetry; exact (f_equal (fun l => concat (map (row_of (fun j => upd (ys j) i (v j))) l)) Eq)]. cbn beta.
    rewrite map_app, concat_app. cbn [map concat]. f_equal; [|f_equal].
    - f_equal. apply map_ext_in. intros r Hr. unfold row_of. apply map_ext_in. intros j Hj. apply in_seq in Hj. rewrite vec_upd by (rewrite Hy; lia).
      destruct (Nat.eqb_spec r i); [exfalso; eapply Hf; eauto|reflexivity].
    - apply map_ext_in. intros j Hj. apply in_seq in Hj. rewrite vec_upd by (rewrite Hy; lia). rewrite Nat.eqb_refl. reflexivity.
    - f_equal. apply map_ext_in. intros r Hr. unfold row_of. apply map_ext_in. intros j Hj. apply in_seq in Hj. rewrite vec_upd by (rewrite Hy; lia).
      destruct (Nat.eqb_spec r i); [exfalso; eapply Hg; eauto|reflexivity].
  Qed.

  Variable xs : nat -> list R.
  Lemma b_register_ok : forall ys n row, n < nnz -> row < N ->
    b_register A R V e (fl (batch xs)) (fl (batch ys)) n row = Ok (fl (map (fun j => next (xs j) n row (vec (ys j) row)) (seq 0 step))).
  Proof.
    intros ys n row Hn Hr. unfold b_register. destruct (getE row n Hr Hn) as (E1 & E2). rewrite E1. cbn [obind].
    rewrite !batch_load by auto. cbn [obind]. unfold row_of. rewrite (vl_splat _ _ _ HV).
    assert (Er : forall s : R, repeat s step = map (fun _ => s) (seq 0 step)) by (intros s; symmetry; apply repeat_map). rewrite Er.
    unfold KpmEllProofs.next. destruct (Nat.eqb_spec n 0) as [->|Hn0].
    - rewrite flat_neg, map_map. rewrite (vl_madd _ _ _ HV) by (rewrite map_length, seq_length; reflexivity). rewrite zip3_map. reflexivity.
    - rewrite (vl_madd _ _ _ HV) by (rewrite map_length, seq_length; reflexivity). rewrite zip3_map. reflexivity.
  Qed.
  Lemma b_loop : forall n d s ys, n < nnz -> (forall j, j < step -> length (ys j) = N) -> (s + d <= N)%nat ->
    ofold (b_step A R V e (fl (batch xs)) n) (seq s d) (fl (batch ys)) = Ok (fl (batch (fun j => upd_rows R N s (s + d) (next (xs j) n) (ys j)))).
  Proof.
    intros n. induction d as [|d IH]; intros s ys Hn Hy Hd.
    - cbn [seq ofold]. f_equal. f_equal. apply batch_ext. intros j i Hj Hi. rewrite Nat.add_0_r, upd_rows_none by auto. reflexivity.
    - cbn [seq ofold]. unfold b_step at 1. rewrite b_register_ok by (auto; lia). cbn [obind]. rewrite batch_store by (auto; lia). cbn [obind].
      rewrite IH by (auto; try lia; intros; rewrite upd_length; auto). f_equal. f_equal. apply batch_ext. intros j i Hj Hi.
      rewrite <- (upd_rows_one R N) by (auto; lia). rewrite upd_rows_join by lia. f_equal. f_equal. lia.
  Qed.
  Lemma upd_rows_congr : forall s e' f y y' i, i < N -> vec y i = vec y' i -> vec (upd_rows R N s e' f y) i = vec (upd_rows R N s e' f y') i.
  Proof. intros. rewrite !upd_rows_at by auto. rewrite H0. reflexivity. Qed.
  Lemma b_columns : forall s e' ys c, s <= e' -> e' <= N -> (forall j, j < step -> length (ys j) = N) -> c <= nnz ->
    ofold (fun y n => ofold (b_step A R V e (fl (batch xs)) n) (seq s (e' - s)%nat) y) (seq 0 c) (fl (batch ys))
    = Ok (fl (batch (fun j => upd_rows R N s e' (after R e (xs j) c) (ys j)))).
  Proof.
    intros s e' ys c H1 H2 Hy. induction c as [|c IH]; intros Hc.
    - cbn [seq ofold]. f_equal. f_equal. apply batch_ext. intros j i Hj Hi. rewrite upd_rows_at by auto. unfold after. cbn. destruct (in_rows s e' i); reflexivity.
    - rewrite seq_S, ofold_app, IH by lia. cbn [obind ofold plus]. rewrite b_loop by (auto; try lia; intros; apply upd_rows_length). cbn [obind]. f_equal. f_equal.
      apply batch_ext. intros j i Hj Hi. replace (s + (e' - s))%nat with e' by lia. rewrite upd_rows_twice. f_equal. apply upd_rows_ext. intros r _ _ _.
      unfold KpmEllProofs.next, after. cbn [Nat.eqb]. rewrite part_S. unfold term. destruct (Nat.eqb_spec c 0) as [->|]; [unfold part; cbn|]; ring.
  Qed.
  Hypothesis Hxs : forall j, j < step -> length (xs j) = N.
  Lemma b_spmv_ok : forall s e' ys, s <= e' -> e' <= N -> (forall j, j < step -> length (ys j) = N) ->
    b_spmv A R V 0 e s e' (fl (batch xs)) (fl (batch ys)) = Ok (fl (batch (fun j => spmv_ref R m N s e' (xs j) (ys j)))).
  Proof.
    intros s e' ys H1 H2 Hy. unfold b_spmv. rewrite Nat.sub_0_r, b_columns by auto. f_equal. f_equal. apply batch_ext. intros j i Hj Hi.
    rewrite (after_full R N m e Hm HF step Hs Hnnz) by auto. reflexivity.
  Qed.
  Lemma lift2_chunks : forall f {T} (g h : T -> list A) l, (forall t, In t l -> length (g t) = length (h t)) ->
    lift2 A f (concat (map g l)) (concat (map h l)) = concat (map (fun t => lift2 A f (g t) (h t)) l).
  Proof.
    intros f T g h. induction l as [|t l IH]; intros H; [reflexivity|]. cbn [map concat]. rewrite lift2_app by (apply H; left; auto). rewrite IH by (intros; apply H; right; auto). reflexivity.
  Qed.
  Lemma b_fused_loop : forall n s d ys w2 (m3 : nat -> R), n < nnz -> (forall j, j < step -> length (ys j) = N) -> (forall j, length (w2 j) = q) -> (s + d <= N)%nat ->
    exists w2', ofold (b_fused A R V e (fl (batch xs)) n) (seq s d) (fl (batch ys), concat (map w2 (seq 0 step)), fl (map m3 (seq 0 step)))
      = Ok (fl (batch (fun j => upd_rows R N s (s + d) (next (xs j) n) (ys j))), concat (map w2' (seq 0 step)),
            fl (map (fun j => m3 j + sum_rows R s (s + d) (fun i => kconj (next (xs j) n i (vec (ys j) i)) * vec (xs j) i)) (seq 0 step)))
      /\ (forall j, length (w2' j) = q)
      /\ (forall j, v_of_real V (total A (w2' j)) = v_of_real V (total A (w2 j)) + sum_rows R s (s + d) (fun i => kconj (vec (xs j) i) * vec (xs j) i)).
  Proof.
    intros n s d ys w2 m3 Hn Hy Hw. unfold sum_rows. replace (s + d - s)%nat with d by lia. induction d as [|d IH]; intros Hd.
    - exists w2. cbn [seq ofold ksum fold_right]. split; [|split; [exact Hw|intros; ring]]. f_equal. f_equal; [f_equal|].
      + f_equal. apply batch_ext. intros j i Hj Hi. rewrite Nat.add_0_r, upd_rows_none by auto. reflexivity.
      + f_equal. apply map_ext. intros j. ring.
    - destruct (IH ltac:(lia)) as (w2' & E & L & T). exists (fun j => lift2 A kadd (w2' j) (lift2 A kmul (v_put V (vec (xs j) (s + d))) (v_put V (vec (xs j) (s + d))))).
      split; [|split].
      + rewrite seq_S, ofold_app, E. cbn [obind ofold]. unfold b_fused at 1. rewrite b_register_ok by (auto; lia). cbn [obind]. rewrite batch_load by lia. cbn [obind].
        rewrite batch_store by (try lia; intros; apply upd_rows_length). cbn [obind]. f_equal. f_equal; [f_equal|].
        * f_equal. apply batch_ext. intros j i Hj Hi. rewrite <- (upd_rows_one R N) by (rewrite ?upd_rows_length; lia). rewrite upd_rows_join by lia. f_equal. f_equal. lia.
        * unfold row_of, flat. rewrite map_map. rewrite lift2_chunks by auto.
          rewrite lift2_chunks by (intros j _; rewrite L, lift2_length, (vl_len _ _ _ HV) by auto; reflexivity). reflexivity.
        * unfold row_of. rewrite (vl_cmadd _ _ _ HV) by (rewrite map_length, seq_length; reflexivity). rewrite zip3_map. f_equal. apply map_ext_in. intros j Hj. apply in_seq in Hj.
          rewrite !ksum_app, !ksum_cons, !ksum_nil. rewrite upd_rows_at by lia. unfold in_rows. destruct (Nat.ltb_spec (s + d) (s + d)); [lia|]. rewrite andb_false_r. ring.
      + intros j. rewrite lift2_length by (rewrite lift2_length, (vl_len _ _ _ HV), L; auto). apply L.
      + intros j. rewrite total_add by (rewrite lift2_length, (vl_len _ _ _ HV), L; auto). rewrite (vl_real_add _ _ _ HV), T, lift2_diag, (vl_norm _ _ _ HV).
        rewrite seq_S, ksum_app, ksum_cons, ksum_nil. ring.
  Qed.
  Lemma b_diag_ok : forall s e' ys (m2 m3 : nat -> R), s <= e' -> e' <= N -> (forall j, j < step -> length (ys j) = N) ->
    b_diag A R V e s e' (fl (batch xs)) (fl (batch ys)) (fl (map m2 (seq 0 step))) (fl (map m3 (seq 0 step)))
    = Ok (fl (batch (fun j => spmv_ref R m N s e' (xs j) (ys j))),
          fl (map (fun j => m2 j + sum_rows R s e' (fun i => kconj (vec (xs j) i) * vec (xs j) i)) (seq 0 step)),
          fl (map (fun j => m3 j + sum_rows R s e' (fun i => kconj (vec (spmv_ref R m N s e' (xs j) (ys j)) i) * vec (xs j) i)) (seq 0 step))).
  Proof.
    intros s e' ys m2 m3 H1 H2 Hy. unfold b_diag, b_spmv. rewrite b_columns by (auto; lia). cbn [obind].
    assert (Hx' : exists n, nnz = S n) by (exists (nnz - 1)%nat; lia). destruct Hx' as (n & En). rewrite En. replace (S n - 1)%nat with n by lia.
    set (y1 := fun j => upd_rows R N s e' (after R e (xs j) n) (ys j)).
    assert (Ez : repeat (k0 : A) (q * step)%nat = fl (map (fun _ => k0 : R) (seq 0 step))) by (rewrite repeat_map; symmetry; apply flat_zero).
    assert (Ez2 : repeat (k0 : A) (q * step)%nat = concat (map (fun _ : nat => repeat (k0 : A) q) (seq 0 step))).
    { rewrite Ez. unfold flat. rewrite map_map. f_equal. apply map_ext. intros. apply (vl_zeros _ _ _ HV). }
    rewrite Ez at 2. rewrite Ez2.
    destruct (b_fused_loop n s (e' - s) y1 (fun _ => repeat k0 q) (fun _ => k0)) as (w2 & E & L & T); auto; try lia.
    { intros. apply upd_rows_length. } { intros. apply repeat_length. }
    rewrite E. cbn [obind]. replace (s + (e' - s))%nat with e' in * by lia.
    assert (Ey : forall j, upd_rows R N s e' (next (xs j) n) (y1 j) = spmv_ref R m N s e' (xs j) (ys j)).
    { intros j. rewrite <- (after_full R N m e Hm HF step Hs Hnnz) by auto. unfold y1. rewrite upd_rows_twice. apply upd_rows_ext. intros i _ _ _.
      rewrite En. unfold KpmEllProofs.next, after. cbn [Nat.eqb]. rewrite part_S. unfold term.
      destruct (Nat.eqb_spec n 0) as [-> |]; [unfold part; cbn|]; ring. }
    f_equal. f_equal; [f_equal|].
    - f_equal. apply batch_ext. intros j i _ _. rewrite Ey. reflexivity.
    - rewrite (vl_fold _ _ _ HV); [|rewrite map_length, seq_length; reflexivity|intros w Hw; apply in_map_iff in Hw; destruct Hw as (j & <- & _); apply L].
      rewrite map_map, flat_add. f_equal. apply map_ext. intros j. rewrite T, total_zero, (vl_real_0 _ _ _ HV). ring.
    - rewrite flat_add. f_equal. apply map_ext_in. intros j Hj. rewrite <- Ey.
      transitivity (m3 j + sum_rows R s e' (fun i => kconj (next (xs j) n i (vec (y1 j) i)) * vec (xs j) i)); [ring|]. f_equal.
      apply ksum_ext. intros i Hi. apply in_seq in Hi. rewrite upd_rows_at by lia. unfold in_rows. destruct (Nat.leb_spec s i), (Nat.ltb_spec i e'); try lia. reflexivity.
  Qed.
End WordKernels.

Lemma w_kernel_ok : forall (A R : scalar) (V : vectors A R) (half : R) aligned m N, vector_laws A R V -> in_range R m N -> 0 < N -> (exists i, entries m i <> []) ->
  kernel_ok R half (w_kernel A R V half aligned m) m N.
Proof.
  intros A R V half al m N HV Hr HN (i & Hi). destruct (csr_to_ell_ok R m N Hr HN) as (e & Ee & En & HF). pose proof (max_nnz_pos R m i Hi) as Hp.
  rewrite <- En in HF, Hp. pose proof (proj1 Hr) as Hm. pose proof (rows_len R N m e Hm HF) as Hl.
  unfold w_kernel. rewrite Ee. split; [exact Hl|]. cbn [kr_spmv kr_diag kr_r1]. rewrite Hl.
  split; [|split].
  - intros s e' x y Hx Hy H1 H2. rewrite (w_spmv_ok A R V HV N m e Hm HF Hp) by auto. unfold omap, obind. f_equal.
    rewrite <- (spmv_ref_length R m N s e' x y) at 1. apply (unflat_ok A R V HV).
  - intros s e' x y m2 m3 Hx Hy H1 H2. rewrite (w_diag_ok A R V HV N m e Hm HF Hp) by auto. unfold omap, obind. f_equal. f_equal. f_equal.
    rewrite <- (spmv_ref_length R m N s e' x y) at 1. apply (unflat_ok A R V HV).
  - intros. apply (make_r1_ok R half N m e Hm HF). auto.
Qed.

(** ** Addresses *)
Lemma round_up_ok : forall step fuel size, 0 < step -> (step - size mod step) mod step <= fuel ->
  exists r, round_up fuel step size = Some r /\ r mod step = 0 /\ size <= r /\ r < size + step.
Proof.
  intros step fuel. induction fuel as [|f IH]; intros size Hs Hf; cbn [round_up].
  - pose proof (Nat.mod_upper_bound size step ltac:(lia)) as B.
    destruct (Nat.eqb_spec (size mod step) 0) as [E|E]; [exists size; repeat split; auto; lia|].
    rewrite Nat.mod_small in Hf by lia. lia.
  - pose proof (Nat.mod_upper_bound size step ltac:(lia)) as B.
    destruct (Nat.eqb_spec (size mod step) 0) as [E|E]; [exists size; repeat split; auto; lia|].
    rewrite Nat.mod_small in Hf by lia. pose proof (Nat.div_mod size step ltac:(lia)) as D.
    assert (Hm : (S size) mod step = if S (size mod step) =? step then 0 else S (size mod step)).
    { destruct (Nat.eqb_spec (S (size mod step)) step) as [Es|Es].
      - replace (S size) with (0 + (S (size / step)) * step) by nia. rewrite Nat.mod_add by lia. apply Nat.mod_small. lia.
      - replace (S size) with (S (size mod step) + (size / step) * step) by nia. rewrite Nat.mod_add by lia. apply Nat.mod_small. lia. }
    destruct (IH (S size) Hs) as (r & E1 & E2 & E3 & E4).
    { rewrite Hm. destruct (Nat.eqb_spec (S (size mod step)) step); [rewrite Nat.sub_0_r, Nat.mod_same by lia; lia|rewrite Nat.mod_small by lia; lia]. }
    exists r. repeat split; auto; [lia|]. destruct f as [|f].
    + cbn [round_up] in E1. destruct (_ =? 0) in E1; [injection E1 as <-; lia|discriminate].
    + destruct (Nat.eq_dec r (size + step)) as [Er|]; [|lia]. exfalso. rewrite Er in E2.
      replace (size + step) with (size + 1 * step) in E2 by lia. rewrite Nat.mod_add in E2 by lia. lia.
Qed.
Lemma peel_aligned : forall al d pos, al (peel_loop al d pos) = true \/ peel_loop al d pos = pos + d.
Proof.
  intros al. induction d as [|d IH]; intros pos; cbn [peel_loop]; [right; lia|]. destruct (al pos) eqn:E; [left; auto|].
  destruct (IH (S pos)) as [H|H]; [left; auto|right; lia].
Qed.
Lemma split_peel : forall al step s e sp, split_loop al step s e = Some sp -> sp_peel sp = peel_loop al (e - s) s.
Proof. intros al step s e sp H. unfold split_loop in H. destruct (vec_loop _ _ _ _); [|discriminate]. injection H as <-. reflexivity. Qed.
