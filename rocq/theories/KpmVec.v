(* The matrix-vector kernels of Kpm.v compute the reference row action, stay in bounds and leave
   other rows untouched. *)
From Verif Require Import Base Scalar Kpm KpmSpec.
From Coq Require Import Ring.

Section Vec.
  Variable R : scalar.
  Variable half : R.
  Add Ring Rring : (k_ring R).
  Local Open Scope k_scope.
  Local Notation csr := (list (list (nat * R))).

  (** Row [i] of the matrix applied to [x]. *)
  Definition act (m : csr) (x : nat -> R) (i : nat) : R := ksum (fun e => snd e * x (fst e)) (entries m i).

  Definition in_rows (s e i : nat) : bool := (s <=? i) && (i <? e).
  Definition spmv_ref (m : csr) (N s e : nat) (x y : list R) : list R :=
    map (fun i => if in_rows s e i then act m (vec x) i - vec y i else vec y i) (seq 0 N).
  Definition sum_rows (s e : nat) (f : nat -> R) : R := ksum f (seq s (e - s)).

  Lemma vec_map : forall (f : nat -> R) N i, i < N -> vec (map f (seq 0 N)) i = f i.
  Proof.
    intros f N i Hi. unfold vec. rewrite (nth_indep _ k0 (f 0)) by (rewrite map_length, seq_length; auto).
    rewrite map_nth, seq_nth by auto. reflexivity.
  Qed.
  Lemma vec_out : forall (l : list R) i, length l <= i -> vec l i = k0.
  Proof. intros. unfold vec. apply nth_overflow. auto. Qed.
  Lemma vec_ext : forall (a b : list R), length a = length b -> (forall i, i < length a -> vec a i = vec b i) -> a = b.
  Proof. intros a b L H. apply (nth_ext _ _ k0 k0); auto. Qed.
  Lemma vec_upd : forall (l : list R) i j v, i < length l -> vec (upd l i v) j = if j =? i then v else vec l j.
  Proof.
    unfold vec. induction l as [|a l IH]; intros i j v H; cbn in H; [lia|].
    destruct i, j; cbn; auto. rewrite IH by lia. reflexivity.
  Qed.
  Lemma aget_vec : forall (l : list R) i, i < length l -> aget l i = Ok (vec l i).
  Proof. intros l i H. unfold aget, vec. rewrite (nth_error_nth' l k0 H). reflexivity. Qed.
  Lemma aget_entries : forall (m : csr) i, i < length m -> aget m i = Ok (entries m i).
  Proof. intros l i H. unfold aget, entries. rewrite (nth_error_nth' l [] H). reflexivity. Qed.

  Lemma spmv_ref_length : forall m N s e x y, length (spmv_ref m N s e x y) = N.
  Proof. intros. unfold spmv_ref. rewrite map_length, seq_length. reflexivity. Qed.
  Lemma spmv_ref_at : forall m N s e x y i, i < N ->
    vec (spmv_ref m N s e x y) i = if in_rows s e i then act m (vec x) i - vec y i else vec y i.
  Proof. intros. unfold spmv_ref. rewrite vec_map; auto. Qed.

  Lemma act_ext : forall m x x' i, (forall e, In e (entries m i) -> x (fst e) = x' (fst e)) -> act m x i = act m x' i.
  Proof. intros m x x' i H. apply ksum_ext. intros e He. rewrite H; auto. Qed.

  Lemma row_mul_ok : forall row x, (forall e, In e row -> fst e < length x) ->
    row_mul R row x = Ok (ksum (fun e => snd e * vec x (fst e)) row).
  Proof.
    intros row x H. unfold row_mul.
    assert (G : forall row a, (forall e, In e row -> fst e < length x) ->
      ofold (fun r e => obind (aget x (fst e)) (fun v => Ok (r + snd e * v))) row a
      = Ok (a + ksum (fun e => snd e * vec x (fst e)) row)).
    { clear H row. induction row as [|e row IH]; intros a H; [cbn; f_equal; ring|].
      cbn [ofold]. rewrite aget_vec by (apply H; left; auto). cbn [obind].
      rewrite IH by (intros; apply H; right; auto). f_equal. rewrite ksum_cons. ring. }
    rewrite G by auto. f_equal. ring.
  Qed.

  (** In-range condition on a stored matrix. *)
  Definition in_range (m : csr) (N : nat) : Prop := length m = N /\ forall i e, In e (entries m i) -> fst e < N.

  Lemma csr_spmv_ok : forall m N s e x y, in_range m N -> length x = N -> length y = N -> e <= N ->
    csr_spmv R m s e x y = Ok (spmv_ref m N s e x y).
  Proof.
    intros m N s e x y (Hl & Hc) Hx Hy He. unfold csr_spmv.
    assert (G : forall d s y, length y = N -> s + d <= N ->
      ofold (fun y row =>
             obind (aget m row) (fun es =>
             obind (row_mul R es x) (fun r =>
             obind (aget y row) (fun v => Ok (upd y row (r - v)))))) (seq s d) y
      = Ok (spmv_ref m N s (s + d) x y)).
    { clear s y Hy. induction d as [|d IH]; intros s y Hy Hd.
      - cbn. f_equal. apply vec_ext; [rewrite spmv_ref_length; lia|]. intros i Hi. rewrite spmv_ref_at by lia.
        unfold in_rows. destruct (Nat.leb_spec s i), (Nat.ltb_spec i (s + 0)); cbn; auto; lia.
      - cbn [seq ofold]. rewrite aget_entries by lia. cbn [obind].
        rewrite row_mul_ok by (intros; rewrite Hx; eapply Hc; eauto). cbn [obind].
        rewrite aget_vec by lia. cbn [obind]. rewrite IH by (rewrite ?upd_length; lia). f_equal.
        apply vec_ext; [rewrite !spmv_ref_length; auto|]. rewrite spmv_ref_length. intros i Hi.
        rewrite !spmv_ref_at by lia. rewrite vec_upd by lia. unfold in_rows.
        destruct (Nat.eqb_spec i s) as [-> | Hn].
        + destruct (Nat.leb_spec (S s) s), (Nat.leb_spec s s), (Nat.ltb_spec s (s + S d)); cbn; try lia. reflexivity.
        + destruct (Nat.leb_spec (S s) i), (Nat.leb_spec s i), (Nat.ltb_spec i (S s + d)), (Nat.ltb_spec i (s + S d));
          cbn; try lia; reflexivity. }
    destruct (Nat.le_gt_cases s e) as [H|H].
    - rewrite G by lia. replace (s + (e - s))%nat with e by lia. reflexivity.
    - replace (e - s)%nat with 0 by lia. cbn. f_equal. apply vec_ext; [rewrite spmv_ref_length; lia|].
      intros i Hi. rewrite spmv_ref_at by lia. unfold in_rows.
      destruct (Nat.leb_spec s i), (Nat.ltb_spec i e); cbn; auto; lia.
  Qed.

  Lemma nth_firstn' : forall (x : list R) n i d, i < n -> nth i (firstn n x) d = nth i x d.
  Proof.
    induction x as [|a x IH]; intros n i d H; [rewrite firstn_nil; reflexivity|].
    destruct n; [lia|]. destruct i; cbn; auto. apply IH. lia.
  Qed.
  Lemma nth_skipn' : forall s (x : list R) i d, nth i (skipn s x) d = nth (s + i) x d.
  Proof.
    induction s; intros x i d; [reflexivity|]. destruct x; [destruct i; reflexivity|]. cbn. apply IHs.
  Qed.

  Lemma segment_ok : forall s e x, s <= e -> e <= length x ->
    segment R s e x = Ok (map (vec x) (seq s (e - s))).
  Proof.
    intros s e x H1 H2. unfold segment. destruct (Nat.leb_spec s e); [|lia]. destruct (Nat.leb_spec e (length x)); [|lia].
    cbn. f_equal. apply vec_ext.
    - rewrite firstn_length, skipn_length, map_length, seq_length. lia.
    - rewrite firstn_length, skipn_length. intros i Hi.
      assert (Hi' : i < e - s) by lia.
      unfold vec at 2. rewrite (nth_indep _ k0 (vec x 0)) by (rewrite map_length, seq_length; auto).
      rewrite map_nth, seq_nth by auto. unfold vec.
      rewrite nth_firstn' by auto. apply nth_skipn'.
  Qed.

  Lemma dot_rows : forall (f g : nat -> R) l, dot R (map f l) (map g l) = ksum (fun i => kconj (f i) * g i) l.
  Proof.
    intros. unfold dot. induction l as [|a l IH]; [reflexivity|]. cbn [map combine]. rewrite !ksum_cons, IH. reflexivity.
  Qed.
  Lemma sq_norm_rows : forall (f : nat -> R) l, sq_norm R (map f l) = ksum (fun i => kconj (f i) * f i) l.
  Proof. intros. unfold sq_norm. rewrite ksum_map. reflexivity. Qed.
  Lemma list_as_map : forall (x : list R), x = map (vec x) (seq 0 (length x)).
  Proof.
    intros x. apply vec_ext; [rewrite map_length, seq_length; auto|]. intros i Hi. rewrite vec_map by auto. reflexivity.
  Qed.
  Lemma dot_vec : forall x y : list R, length x = length y ->
    dot R x y = ksum (fun i => kconj (vec x i) * vec y i) (seq 0 (length x)).
  Proof. intros x y H. rewrite (list_as_map x) at 1. rewrite (list_as_map y) at 1. rewrite <- H. apply dot_rows. Qed.
  Lemma sq_norm_vec : forall x : list R, sq_norm R x = ksum (fun i => kconj (vec x i) * vec x i) (seq 0 (length x)).
  Proof. intros x. rewrite (list_as_map x) at 1. apply sq_norm_rows. Qed.

  Lemma csr_spmv_diagonal_ok : forall m N s e x y m2 m3, in_range m N -> length x = N -> length y = N -> s <= e -> e <= N ->
    csr_spmv_diagonal R m s e x y m2 m3
    = Ok (spmv_ref m N s e x y,
          m2 + sum_rows s e (fun i => kconj (vec x i) * vec x i),
          m3 + sum_rows s e (fun i => kconj (vec (spmv_ref m N s e x y) i) * vec x i)).
  Proof.
    intros m N s e x y m2 m3 Hr Hx Hy H1 H2. unfold csr_spmv_diagonal.
    rewrite (csr_spmv_ok m N) by auto. cbn [obind]. rewrite !segment_ok by (rewrite ?spmv_ref_length; lia). cbn [obind].
    rewrite sq_norm_rows, dot_rows. reflexivity.
  Qed.

  Definition r1_ref (m : csr) (N : nat) (r0 : list R) : list R := map (fun i => act m (vec r0) i * half) (seq 0 N).

  Lemma csr_make_r1_ok : forall m N r0, in_range m N -> length r0 = N -> csr_make_r1 R half m r0 = Ok (r1_ref m N r0).
  Proof.
    intros m N r0 (Hl & Hc) H0. unfold csr_make_r1.
    assert (G : forall rows acc, (forall row, In row rows -> forall e, In e row -> fst e < N) ->
      ofold (fun r1 row => obind (row_mul R row r0) (fun t => Ok (r1 ++ [t * half]))) rows acc
      = Ok (acc ++ map (fun row => ksum (fun e => snd e * vec r0 (fst e)) row * half) rows)).
    { induction rows as [|row rows IH]; intros acc H; cbn [ofold map]; [rewrite app_nil_r; auto|].
      rewrite row_mul_ok by (intros; rewrite H0; eapply H; [left|]; eauto). cbn [obind].
      rewrite IH by (intros; eapply H; [right|]; eauto). rewrite <- app_assoc. reflexivity. }
    rewrite G.
    - cbn [app]. f_equal. unfold r1_ref. rewrite <- Hl. clear. unfold act, entries.
      apply (nth_ext _ _ k0 k0); [rewrite !map_length, seq_length; auto|]. rewrite map_length. intros i Hi.
      change (vec (map (fun i => ksum (fun e => snd e * vec r0 (fst e)) (nth i m []) * half) (seq 0 (length m))) i) with
             (nth i (map (fun i => ksum (fun e => snd e * vec r0 (fst e)) (nth i m []) * half) (seq 0 (length m))) k0).
      pose proof (vec_map (fun i => ksum (fun e => snd e * vec r0 (fst e)) (nth i m []) * half) (length m) i Hi) as E.
      unfold vec in E at 1. rewrite E. clear E.
      rewrite (nth_indep _ k0 (ksum (fun e => snd e * vec r0 (fst e)) [] * half)) by (rewrite map_length; auto).
      exact (map_nth (fun row => ksum (fun e => snd e * vec r0 (fst e)) row * half) m [] i).
    - intros row Hr e He. destruct (In_nth _ _ [] Hr) as (i & Hi & E). apply (Hc i). unfold entries. rewrite E. auto.
  Qed.

  (** What a kernel must do; both storage formats satisfy it. *)
  Definition kernel_ok (kr : kernel R) (m : csr) (N : nat) : Prop :=
    kr_rows kr = N
    /\ (forall s e x y, length x = N -> length y = N -> s <= e -> e <= N -> kr_spmv kr s e x y = Ok (spmv_ref m N s e x y))
    /\ (forall s e x y m2 m3, length x = N -> length y = N -> s <= e -> e <= N ->
          kr_diag kr s e x y m2 m3
          = Ok (spmv_ref m N s e x y,
                m2 + sum_rows s e (fun i => kconj (vec x i) * vec x i),
                m3 + sum_rows s e (fun i => kconj (vec (spmv_ref m N s e x y) i) * vec x i)))
    /\ (forall r0, length r0 = N -> kr_r1 kr r0 = Ok (r1_ref m N r0)).

  Lemma csr_kernel_ok : forall m N, in_range m N -> kernel_ok (csr_kernel half m) m N.
  Proof.
    intros m N H. split; [apply H|]. split; [intros; apply csr_spmv_ok; auto|].
    split; [intros; apply csr_spmv_diagonal_ok; auto|intros; apply csr_make_r1_ok; auto].
  Qed.
End Vec.
