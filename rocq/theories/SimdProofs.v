(* The register operations of Simd.v act lane by lane as the arithmetic of the scalars. *)
From Verif Require Import Base Scalar Kpm KpmEll KpmSpec KpmVec KpmEllProofs Simd.
From Coq Require Import Ring.

(** ** Chunks of equal length *)
Section Chunks.
  Context {T U : Type}.
  Variable p : T -> list U.
  Variable c : nat.
  Hypothesis Hp : forall x, length (p x) = c.
  Lemma chunks_length : forall l, length (concat (map p l)) = c * length l.
  Proof. induction l as [|a l IH]; cbn [map concat length]; [lia|]. rewrite app_length, Hp, IH. lia. Qed.
  Lemma chunks_skip : forall n l, skipn (c * n) (concat (map p l)) = concat (map p (skipn n l)).
  Proof.
    induction n as [|n IH]; intros [|a l]; rewrite ?Nat.mul_0_r; cbn [skipn map concat]; auto.
    - destruct (c * S n); reflexivity.
    - replace (c * S n) with (c + c * n) by lia. rewrite skipn_app, Hp. rewrite skipn_all2 by (rewrite Hp; lia).
      replace (c + c * n - c) with (c * n) by lia. apply IH.
  Qed.
  Lemma chunks_first : forall n l, firstn (c * n) (concat (map p l)) = concat (map p (firstn n l)).
  Proof.
    induction n as [|n IH]; intros [|a l]; rewrite ?Nat.mul_0_r; cbn [firstn map concat]; auto.
    - destruct (c * S n); reflexivity.
    - replace (c * S n) with (c + c * n) by lia. rewrite firstn_app, Hp. rewrite firstn_all2 by (rewrite Hp; lia).
      replace (c + c * n - c) with (c * n) by lia. rewrite IH. reflexivity.
  Qed.
  Lemma chunks_load : forall l i k, i + k <= length l -> load (concat (map p l)) (c * i) (c * k) = Ok (concat (map p (firstn k (skipn i l)))).
  Proof.
    intros l i k H. unfold load. rewrite chunks_length. destruct (Nat.leb_spec (c * i + c * k) (c * length l)) as [_|Hc]; [|nia].
    rewrite chunks_skip, chunks_first. reflexivity.
  Qed.
  Lemma chunks_store : forall l i vs, i + length vs <= length l ->
    store_at (concat (map p l)) (c * i) (concat (map p vs)) = Ok (concat (map p (firstn i l ++ vs ++ skipn (i + length vs) l))).
  Proof.
    intros l i vs H. unfold store_at. rewrite !chunks_length. destruct (Nat.leb_spec (c * i + c * length vs) (c * length l)) as [_|Hc]; [|nia].
    replace (c * i + c * length vs) with (c * (i + length vs)) by lia.
    rewrite chunks_first, chunks_skip, !map_app, !concat_app. reflexivity.
  Qed.
End Chunks.
Lemma firstn_skipn_seq : forall {T} (d : T) k i l, i + k <= length l -> firstn k (skipn i l) = map (fun r => nth r l d) (seq i k).
Proof.
  intros T d. induction k as [|k IH]; intros i l H; [reflexivity|].
  assert (E : skipn i l = nth i l d :: skipn (S i) l).
  { clear IH. assert (Hi : i < length l) by lia. clear H. revert l Hi. induction i as [|i IHi]; intros [|a l] Hi; cbn in Hi; try lia; [reflexivity|].
    cbn [skipn nth]. rewrite IHi by lia. reflexivity. }
  rewrite E. cbn [firstn seq map]. rewrite IH by lia. reflexivity.
Qed.
Lemma load_seq : forall {T} (d : T) l i k, i + k <= length l -> load l i k = Ok (map (fun r => nth r l d) (seq i k)).
Proof. intros T d l i k H. unfold load. destruct (Nat.leb_spec (i + k) (length l)); [|lia]. rewrite (firstn_skipn_seq d) by auto. reflexivity. Qed.
Lemma upd_split : forall {T} (l : list T) i v, i < length l -> upd l i v = firstn i l ++ [v] ++ skipn (i + 1) l.
Proof.
  intros T. induction l as [|a l IH]; intros [|i] v H; cbn in H; try lia; [reflexivity|]. cbn [upd firstn app Nat.add skipn]. f_equal. apply IH. lia.
Qed.
Lemma store_cons : forall (R : scalar) (vs y : list R) a row, store R (a :: y) (S row) vs = a :: store R y row vs.
Proof.
  intros R. induction vs as [|v vs IH]; intros y a row; [reflexivity|].
  change (store R (upd (a :: y) (S row) v) (S (S row)) vs = a :: store R (upd y row v) (S row) vs). cbn [upd]. apply IH.
Qed.
Lemma store_split : forall (R : scalar) (y vs : list R) row, row + length vs <= length y -> store R y row vs = firstn row y ++ vs ++ skipn (row + length vs) y.
Proof.
  intros R. induction y as [|a y IH]; intros vs row H; cbn [length] in H.
  - destruct row, vs; cbn in H; try lia. reflexivity.
  - destruct row as [|row].
    + destruct vs as [|v vs]; [reflexivity|]. change (store R (upd (a :: y) 0 v) 1 vs = v :: vs ++ skipn (length vs) y). cbn [upd length] in *.
      rewrite store_cons. f_equal. rewrite (IH vs 0) by lia. reflexivity.
    + rewrite store_cons, IH by lia. reflexivity.
Qed.

Fixpoint zip3 {S : scalar} (f : S -> S -> S -> S) (a b c : list S) : list S :=
  match a, b, c with x :: a, y :: b, z :: c => f x y z :: zip3 f a b c | _, _, _ => [] end.
Lemma zip3_map : forall {S : scalar} (f : S -> S -> S -> S) {T} (g h k : T -> S) l, zip3 f (map g l) (map h l) (map k l) = map (fun t => f (g t) (h t) (k t)) l.
Proof. intros. induction l as [|a l IH]; cbn; [|rewrite IH]; reflexivity. Qed.

(** ** What the register operations must do *)
Section Laws.
  Variables A S : scalar.
  Variable V : vectors A S.
  Local Open Scope k_scope.
  Record vector_laws : Prop := Laws {
    vl_step : 0 < v_step V; vl_words : 0 < v_words V;
    vl_len : forall s, length (v_put V s) = v_words V;
    vl_get : forall s, v_get V (v_put V s) = s;
    vl_zeros : v_put V k0 = repeat k0 (v_words V);
    vl_neg : forall s, map kopp (v_put V s) = v_put V (kopp s);
    vl_add : forall s t, lift2 A kadd (v_put V s) (v_put V t) = v_put V (s + t);
    vl_gather : forall xs idx, length idx = v_step V -> (forall i, In i idx -> i < length xs) ->
      v_gather V (flat A S V xs) idx = Ok (flat A S V (map (fun i => nth i xs k0) idx));
    vl_madd : forall a b c, length a = v_step V -> length b = v_step V -> length c = v_step V ->
      v_madd V (flat A S V a) (flat A S V b) (flat A S V c) = flat A S V (zip3 (fun a b c => a * b + c) a b c);
    vl_cmadd : forall a b c, length a = v_step V -> length b = v_step V -> length c = v_step V ->
      v_cmadd V (flat A S V a) (flat A S V b) (flat A S V c) = flat A S V (zip3 (fun a b c => kconj a * b + c) a b c);
    vl_total : forall l, v_total V (flat A S V l) = ksum (fun s => s) l;
    vl_real_0 : v_of_real V k0 = k0;
    vl_real_add : forall a b, v_of_real V (a + b) = v_of_real V a + v_of_real V b;
    vl_norm : forall s, v_of_real V (total A (map (fun a => a * a) (v_put V s))) = kconj s * s;
    vl_square : forall s, v_of_real V (v_square V s) = kconj s * s;
    vl_fold : forall ws : list (list A), length ws = v_step V -> (forall w, In w ws -> length w = v_words V) ->
      v_fold V (concat ws) = flat A S V (map (fun w => v_of_real V (total A w)) ws);
    vl_splat : forall s, v_splat V s = flat A S V (repeat s (v_step V)) }.
End Laws.

Lemma list_of_length : forall {T} n (l : list T), length l = S n -> exists x r, l = x :: r /\ length r = n.
Proof. intros T n [|x l] H; cbn in H; [discriminate|]. injection H as H. eauto. Qed.
Ltac explode H := repeat (apply list_of_length in H; let x := fresh "i" in let r := fresh "r" in destruct H as (x & r & -> & H)); apply length_zero_iff_nil in H; rewrite H in *; clear H.

(** ** Gather *)
Section GatherProofs.
  Context {T : Type}.
  Variable z : T.
  Lemma gather_lanes : forall (mem : list T) idx, (forall i, In i idx -> i < length mem) -> lanes (aget mem) idx = Ok (map (fun i => nth i mem z) idx).
  Proof. intros mem idx H. apply lanes_ok. intros r Hr. apply aget_ok. auto. Qed.
  Ltac fetch H := repeat (rewrite (aget_ok _ _ z) by (apply H; cbn; tauto); cbn [obind omap]).
  Lemma gather64x4_ok : forall ar (mem : list T) idx, length idx = 4 -> (forall i, In i idx -> i < length mem) ->
    gather64x4 ar mem idx = Ok (map (fun i => nth i mem z) idx).
  Proof.
    intros ar mem idx L H. explode L.
    destruct ar; try (unfold gather64x4, elem; cbn [aget nth_error obind]; fetch H; reflexivity).
    unfold gather64x4, hw_gather. unfold load. cbn [Nat.add length Nat.leb skipn firstn obind]. apply gather_lanes. exact H.
  Qed.
  Lemma gather_real_ok : forall ar w (mem : list T) idx, length idx = register_words w -> (forall i, In i idx -> i < length mem) ->
    gather_real z ar w mem idx = Ok (map (fun i => nth i mem z) idx).
  Proof.
    intros ar w mem idx L H. destruct w; cbn in L.
    - explode L. destruct ar; cbn [gather_real].
      + change (register_words F32 / base_length F32) with 2. change (index_step F32 1) with 4. cbn [emulated].
        unfold gather32x4, load_ss, omap. cbn [skipn aget nth_error obind]. fetch H. reflexivity.
      + unfold gather32x8, both, gather32x4, load_ss. cbn [skipn aget nth_error obind]. fetch H. reflexivity.
      + unfold gather32x8, hw_gather, load. cbn [Nat.add length Nat.leb skipn firstn obind]. apply gather_lanes. exact H.
    - destruct ar; cbn [gather_real]; try (apply gather64x4_ok; auto). explode L.
      change (register_words F64 / base_length F64) with 2. change (index_step F64 1) with 2. cbn [emulated].
      unfold gather64x2, omap. cbn [skipn aget nth_error obind]. fetch H. reflexivity.
  Qed.
  Notation flatten := (fun l : list (T * T) => concat (map (fun p => [fst p; snd p]) l)).
  Lemma as_doubles_flat : forall l, as_doubles (flatten l) = l.
  Proof. induction l as [|[a b] l IH]; cbn; [|rewrite IH]; reflexivity. Qed.
  Lemma as_floats_flat : forall l, as_floats l = flatten l.
  Proof. induction l as [|[a b] l IH]; cbn; [|rewrite IH]; reflexivity. Qed.
  Lemma load_pair : forall l i, i < length l -> load (flatten l) (2 * i) 2 = Ok (flatten [nth i l (z, z)]).
  Proof.
    intros l i H. pose proof (chunks_load (fun p : T * T => [fst p; snd p]) 2 (fun _ => eq_refl) l i 1 ltac:(lia)) as E.
    rewrite (firstn_skipn_seq (z, z)) in E by lia. exact E.
  Qed.
  Lemma gather_complex_ok : forall ar w (xs : list (T * T)) idx, length idx = register_words w / 2 -> (forall i, In i idx -> i < length xs) ->
    gather_complex z ar w (flatten xs) idx = Ok (flatten (map (fun i => nth i xs (z, z)) idx)).
  Proof.
    intros ar w xs idx L H. assert (D : gather_complex z AVX F64 (flatten xs) idx = gather_complex z AVX2 F64 (flatten xs) idx) by reflexivity.
    destruct w.
    - destruct ar; cbn [gather_complex]; rewrite as_doubles_flat.
      + cbn in L. explode L. change (register_words F32 / base_length F32) with 2. change (index_step F32 2) with 2. cbn [emulated].
        unfold gather64x2, omap. cbn [skipn aget nth_error obind].
        repeat (rewrite (aget_ok _ _ (z, z)) by (apply H; cbn; tauto); cbn [obind]). rewrite !as_floats_flat. reflexivity.
      + pose proof (@gather64x4_ok) as G. clear G. unfold gather64x4, elem. cbn in L. explode L. cbn [aget nth_error obind].
        repeat (rewrite (aget_ok _ _ (z, z)) by (apply H; cbn; tauto); cbn [obind]). unfold omap, obind. rewrite !as_floats_flat. reflexivity.
      + unfold gather64x4, hw_gather. cbn in L. explode L. unfold load. cbn [Nat.add length Nat.leb skipn firstn obind].
        rewrite (lanes_ok (aget xs) (fun i => nth i xs (z, z))) by (intros r Hr; apply aget_ok; auto). unfold omap, obind. rewrite as_floats_flat. reflexivity.
    - assert (G : gather64x4_complex (flatten xs) idx = Ok (flatten (map (fun i => nth i xs (z, z)) idx))).
      { cbn in L. explode L. unfold gather64x4_complex, both, gather64x2_complex. cbn [skipn aget nth_error obind].
        rewrite !load_pair by (apply H; cbn; tauto). reflexivity. }
      destruct ar; cbn [gather_complex]; auto. rewrite <- G. clear G D. cbn in L. explode L.
      change (register_words F64 / base_length F64) with 2. change (index_step F64 2) with 1. cbn [emulated].
      unfold gather64x4_complex, both, gather64x2_complex, omap. cbn [skipn aget nth_error obind].
      rewrite !load_pair by (apply H; cbn; tauto). reflexivity.
  Qed.
End GatherProofs.

(** ** Real numbers *)
Section RealLaws.
  Variable A : scalar.
  Hypothesis Hconj : forall a : A, kconj a = a.
  Add Ring Aring2 : (k_ring A).
  Local Open Scope k_scope.
  Lemma flat_real : forall ar w l, flat A A (real_vectors A ar w) l = l.
  Proof. intros. unfold flat. cbn [real_vectors v_put]. induction l as [|a l IH]; cbn; [|rewrite IH]; reflexivity. Qed.
  Lemma madd_real_ok : forall a b c, madd_real A a b c = zip3 (fun a b c => a * b + c) a b c.
  Proof. unfold madd_real, lift2. induction a as [|x a IH]; intros [|y b] [|w c]; cbn; auto. rewrite IH. reflexivity. Qed.
  Lemma real_laws : forall ar w, vector_laws A A (real_vectors A ar w).
  Proof.
    intros ar w. constructor; cbn [real_vectors v_step v_words v_put v_get v_gather v_madd v_cmadd v_total v_of_real v_square v_fold v_splat]; intros; rewrite ?flat_real; auto.
    - destruct w; cbv; lia.
    - apply gather_real_ok; auto.
    - apply madd_real_ok.
    - rewrite madd_real_ok. revert b c H H0 H1. induction a as [|x a IH]; intros [|y b] [|u c] _ _ _; cbn; auto. rewrite Hconj. f_equal.
      revert b c. clear -Hconj. induction a as [|x a IH]; intros [|y b] [|u c]; cbn; auto. rewrite Hconj, IH. reflexivity.
    - unfold total. cbn. rewrite Hconj. ring.
    - rewrite Hconj. reflexivity.
    - clear H. induction ws as [|v ws IH]; [reflexivity|]. cbn [concat map]. rewrite IH by (intros; apply H0; right; auto).
      specialize (H0 v (or_introl eq_refl)). destruct v as [|x [|? ?]]; cbn in H0; try discriminate. unfold total. cbn. f_equal. ring.
  Qed.
End RealLaws.

(** ** Complex numbers *)
Section ComplexLaws.
  Variable A : scalar.
  Add Ring Aring3 : (k_ring A).
  Local Open Scope k_scope.
  Notation C := (pair_scalar A).
  Notation flatten := (fun l : list (A * A) => concat (map (fun p => [fst p; snd p]) l)).
  Lemma addsub_ok : forall a b k, length a = (4 * k)%nat -> length b = (4 * k)%nat -> addsub_generic A a b = addsub_native A a b.
  Proof.
    intros a b k. revert a b. induction k as [|k IH]; intros a b La Lb.
    - rewrite Nat.mul_0_r in La, Lb. apply length_zero_iff_nil in La, Lb. subst. reflexivity.
    - replace (4 * S k)%nat with (S (S (S (S (4 * k))))) in La, Lb by lia.
      do 4 (apply list_of_length in La; let x := fresh "x" in let r := fresh "r" in destruct La as (x & r & -> & La)).
      do 4 (apply list_of_length in Lb; let x := fresh "y" in let r := fresh "r" in destruct Lb as (x & r & -> & Lb)).
      specialize (IH _ _ La Lb). unfold addsub_generic, lift2, r_neg in *. cbn [map combine shuffle4x2 nth addsub_native fst snd]. rewrite IH.
      f_equal; [ring|]. f_equal. f_equal; ring.
  Qed.
  Lemma mul_native : forall a b : list (A * A), length a = length b ->
    complex_mul A AVX (flatten a) (flatten b) = flatten (map (fun p => p_mul A (fst p) (snd p)) (combine a b)).
  Proof.
    unfold complex_mul, addsub, lift2. induction a as [|[a1 a2] a IH]; intros [|[b1 b2] b] H; cbn in H; try discriminate; [reflexivity|].
    injection H as H. specialize (IH b H). cbn [map concat app permute2 pick Nat.eqb combine addsub_native fst snd] in *. rewrite IH. unfold p_mul. cbn [fst snd].
    f_equal. 
  Qed.
  Lemma mul_ok : forall ar (a b : list (A * A)) k, length a = (2 * k)%nat -> length b = (2 * k)%nat ->
    complex_mul A ar (flatten a) (flatten b) = flatten (map (fun p => p_mul A (fst p) (snd p)) (combine a b)).
  Proof.
    intros ar a b k La Lb. etransitivity; [|apply mul_native; lia]. destruct ar; try reflexivity. unfold complex_mul, addsub.
    assert (P : forall i j n l, length l = (2 * n)%nat -> length (permute2 A i j l) = (2 * n)%nat).
    { intros i j. induction n as [|n IHn]; intros l Hl; [rewrite Nat.mul_0_r in *; apply length_zero_iff_nil in Hl; subst; reflexivity|].
      replace (2 * S n)%nat with (S (S (2 * n))) in * by lia. destruct l as [|x [|y l]]; cbn in Hl; try discriminate. cbn [permute2 length]. rewrite IHn; lia. }
    apply (addsub_ok _ _ k); unfold lift2; rewrite map_length, combine_length, !(P _ _ (2 * k)%nat), ?(chunks_length _ 2), ?La, ?Lb; auto;
      rewrite ?(chunks_length _ 2) by auto; lia.
  Qed.
  Lemma add_flat : forall a b : list (A * A), lift2 A kadd (flatten a) (flatten b) = flatten (map (fun p => p_add A (fst p) (snd p)) (combine a b)).
  Proof. unfold lift2. induction a as [|[a1 a2] a IH]; intros [|[b1 b2] b]; cbn; auto. rewrite IH. reflexivity. Qed.
  Lemma conj_flat : forall a : list (A * A), conjugate A (flatten a) = flatten (map (p_conj A) a).
  Proof. induction a as [|[a1 a2] a IH]; cbn; auto. rewrite IH. reflexivity. Qed.
  Lemma zip_mul_add : forall (f : A * A -> A * A) (a b c : list (A * A)),
    map (fun p => p_add A (fst p) (snd p)) (combine (map (fun p => p_mul A (fst p) (snd p)) (combine (map f a) b)) c) = @zip3 C (fun a b c => p_add A (p_mul A (f a) b) c) a b c.
  Proof. intros f. induction a as [|x a IH]; intros [|y b] [|w c]; cbn; auto. rewrite IH. reflexivity. Qed.
  Lemma transpose_zero : forall l : list (A * A), transpose2 A (flatten l) (repeat k0 (length (flatten l)))
    = (flatten (map (fun p => (fst p, k0)) l), flatten (map (fun p => (snd p, k0)) l)).
  Proof. induction l as [|[a b] l IH]; [reflexivity|]. cbn [map concat app length repeat transpose2 fst snd]. rewrite IH. reflexivity. Qed.
  Lemma total_parts : forall (f : A * A -> A) l, total A (flatten (map (fun p => (f p, k0)) l)) = ksum f l.
  Proof. intros f. unfold total. induction l as [|x l IH]; [reflexivity|]. cbn [map concat app fst snd]. rewrite !ksum_cons, IH. ring. Qed.
  Lemma ksum_pair : forall l : list (A * A), @ksum C _ (fun s => s) l = (ksum fst l, ksum snd l).
  Proof. induction l as [|[a b] l IH]; [reflexivity|]. change (p_add A (a, b) (@ksum C _ (fun s => s) l) = (a + ksum fst l, b + ksum snd l)). rewrite IH. reflexivity. Qed.
  Lemma madd_flat : forall ar (a b c : list (A * A)) k, length a = (2 * k)%nat -> length b = (2 * k)%nat ->
    madd_complex A ar (flatten a) (flatten b) (flatten c) = flatten (@zip3 C (fun a b c => p_add A (p_mul A a b) c) a b c).
  Proof.
    intros ar a b c k La Lb. unfold madd_complex. rewrite (mul_ok ar a b k) by auto. etransitivity; [apply add_flat|].
    pose proof (zip_mul_add (fun a => a) a b c) as E. rewrite map_id in E. cbn beta. rewrite E. reflexivity.
  Qed.
  Lemma cmadd_flat : forall ar (a b c : list (A * A)) k, length a = (2 * k)%nat -> length b = (2 * k)%nat ->
    conj_madd_complex A ar (flatten a) (flatten b) (flatten c) = flatten (@zip3 C (fun a b c => p_add A (p_mul A (p_conj A a) b) c) a b c).
  Proof.
    intros ar a b c k La Lb. unfold conj_madd_complex. rewrite conj_flat. cbn beta. rewrite (mul_ok ar (map (p_conj A) a) b k) by (rewrite ?map_length; auto).
    etransitivity; [apply add_flat|]. cbn beta. rewrite zip_mul_add. reflexivity.
  Qed.
  Lemma total_flat : forall l : list (A * A), total_complex A (flatten l) = @ksum C _ (fun s => s) l.
  Proof. intros l. unfold total_complex. rewrite transpose_zero. rewrite !total_parts. symmetry. apply ksum_pair. Qed.
  Lemma fold_flat : forall l : list (A * A), reduce_imag_complex A (flatten l) = flatten (map (fun p => (fst p + snd p, k0)) l).
  Proof.
    intros l. unfold reduce_imag_complex. rewrite transpose_zero. etransitivity; [apply add_flat|]. cbn beta. f_equal. f_equal.
    induction l as [|[x y] l IH]; [reflexivity|]. cbn [map combine fst snd]. rewrite IH. f_equal. unfold p_add. cbn [fst snd]. f_equal. ring.
  Qed.
  Lemma complex_laws : forall ar w, vector_laws A C (complex_vectors A ar w).
  Proof.
    intros ar w.
    assert (Hw : exists k, (register_words w / 2)%nat = (2 * k)%nat /\ 0 < k) by (destruct w; [exists 2%nat|exists 1%nat]; split; auto; lia).
    destruct Hw as (k & Hk & Hk0).
    constructor; unfold flat; cbn [complex_vectors v_step v_words v_put v_get v_gather v_madd v_cmadd v_total v_of_real v_square v_fold v_splat]; intros; auto.
    - rewrite Hk. lia.
    - destruct s; reflexivity.
    - apply gather_complex_ok; auto.
    - rewrite Hk in *. apply (madd_flat ar a b c k); auto.
    - rewrite Hk in *. apply (cmadd_flat ar a b c k); auto.
    - apply total_flat.
    - cbn. unfold p_add. cbn [fst snd]. f_equal. ring.
    - destruct s as [x y]. unfold total. cbn. unfold p_mul, p_conj. cbn [fst snd]. f_equal; ring.
    - destruct s as [x y]. cbn. unfold p_mul, p_conj. cbn [fst snd]. f_equal; ring.
    - assert (E : exists l, concat ws = flatten l /\ map (fun w => (total A w, k0 : A)) ws = map (fun p : A * A => (fst p + snd p, k0 : A)) l).
      { clear H. induction ws as [|v ws IH]; [exists []; auto|]. destruct IH as (l & E1 & E2); [intros; apply H0; right; auto|].
        specialize (H0 v (or_introl eq_refl)). destruct v as [|x [|y [|? ?]]]; cbn in H0; try discriminate.
        exists ((x, y) :: l). cbn [concat map]. rewrite E1, E2. split; [reflexivity|]. f_equal. unfold total. cbn. f_equal. ring. }
      destruct E as (l & E1 & E2). rewrite E1. etransitivity; [apply fold_flat|]. cbn beta. rewrite <- E2. reflexivity.
    - destruct s as [x y], w; reflexivity.
  Qed.
End ComplexLaws.
