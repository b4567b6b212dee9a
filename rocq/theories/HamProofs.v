(* Lemmas about the Hamiltonian builder: emitted entries, buffers, batching, the sparse
   matrix. *)
From Verif Require Import Base Rle RleProofs Blocks BlocksProofs TablesSpec Scalar Foundation Lattice Hamiltonian HamiltonianSpec.
From Coq Require Import Permutation.

(* ---------------- lists ---------------- *)
Lemma with_family_length : forall {A} (l : list A), length (with_family l) = length l.
Proof. intros. unfold with_family. rewrite combine_length, seq_length. lia. Qed.

Lemma with_family_snd : forall {A} (l : list A), map snd (with_family l) = l.
Proof.
  intros A l. unfold with_family. generalize 0. induction l as [|a l IH]; intros n; [reflexivity|].
  cbn [length seq combine map snd]. f_equal. apply IH.
Qed.

Lemma with_family_nth : forall {A} (l : list A) k x, In (k, x) (with_family l) <-> nth_error l k = Some x.
Proof.
  intros A l k x. unfold with_family.
  assert (G : forall l n k, In (k, x) (combine (seq n (length l)) l) <-> n <= k /\ nth_error l (k - n) = Some x).
  { clear. induction l as [|a l IH]; intros n k.
    - cbn. split; [tauto|]. intros [_ H]. destruct (k - n); discriminate.
    - cbn [length seq combine In]. rewrite IH. split.
      + intros [H|[H1 H2]].
        * injection H as -> ->. split; [lia|]. rewrite Nat.sub_diag. reflexivity.
        * split; [lia|]. replace (k - n) with (S (k - S n)) by lia. exact H2.
      + intros [H1 H2]. destruct (Nat.eq_dec k n) as [->|].
        * rewrite Nat.sub_diag in H2. cbn in H2. left. congruence.
        * right. split; [lia|]. replace (k - n) with (S (k - S n)) in H2 by lia. exact H2. }
  rewrite G, Nat.sub_0_r. split; [tauto|]. intros H; split; [lia|exact H].
Qed.

Lemma flat_map_snd : forall {A B} (f : A -> list B) (l : list A),
  flat_map (fun kx => f (snd kx)) (with_family l) = flat_map f l.
Proof.
  intros A B f l. rewrite <- (with_family_snd l) at 2. rewrite !flat_map_concat_map, map_map. reflexivity.
Qed.

Lemma flat_map_ext_in : forall {A B} (f g : A -> list B) l, (forall a, In a l -> f a = g a) -> flat_map f l = flat_map g l.
Proof.
  intros A B f g l. induction l as [|a l IH]; intros H; [reflexivity|]. cbn [flat_map].
  rewrite H by (left; auto). f_equal. apply IH. intros; apply H; right; auto.
Qed.

Lemma flat_map_perm_ext : forall {A B} (f g : A -> list B) l, (forall a, In a l -> Permutation (f a) (g a)) ->
  Permutation (flat_map f l) (flat_map g l).
Proof.
  intros A B f g l. induction l as [|a l IH]; intros H; [constructor|]. cbn [flat_map].
  apply Permutation_app; [apply H; left; auto|apply IH; intros; apply H; right; auto].
Qed.

Lemma flat_map_app_perm : forall {A B} (f g : A -> list B) l,
  Permutation (flat_map (fun a => f a ++ g a) l) (flat_map f l ++ flat_map g l).
Proof.
  intros A B f g l. induction l as [|a l IH]; [constructor|]. cbn [flat_map].
  rewrite IH. rewrite !app_assoc. apply Permutation_app_tail. rewrite <- !app_assoc.
  apply Permutation_app_head. apply Permutation_app_comm.
Qed.

Lemma flat_map_swap : forall {A B C} (f : A -> B -> list C) la lb,
  Permutation (flat_map (fun a => flat_map (f a) lb) la) (flat_map (fun b => flat_map (fun a => f a b) la) lb).
Proof.
  intros A B C f la lb. induction la as [|a la IH].
  - cbn. induction lb as [|b lb IHb]; cbn; auto.
  - cbn [flat_map]. rewrite IH. symmetry. apply (flat_map_app_perm (f a) (fun b => flat_map (fun a0 => f a0 b) la) lb).
Qed.

Lemma map_flat_map : forall {A B C} (g : B -> C) (f : A -> list B) l, map g (flat_map f l) = flat_map (fun a => map g (f a)) l.
Proof. intros A B C g f l. induction l as [|a l IH]; [reflexivity|]. cbn [flat_map]. rewrite map_app, IH. reflexivity. Qed.

Lemma flat_map_map : forall {A B C} (f : B -> list C) (g : A -> B) l, flat_map f (map g l) = flat_map (fun a => f (g a)) l.
Proof. intros A B C f g l. induction l as [|a l IH]; [reflexivity|]. cbn [flat_map map]. rewrite IH. reflexivity. Qed.

Lemma map_as_flat_map : forall {A B} (f : A -> B) l, map f l = flat_map (fun a => [f a]) l.
Proof. intros A B f l. induction l as [|a l IH]; [reflexivity|]. cbn [map flat_map app]. rewrite IH. reflexivity. Qed.

Lemma flat_map_flat_map : forall {A B C} (f : B -> list C) (g : A -> list B) l,
  flat_map f (flat_map g l) = flat_map (fun a => flat_map f (g a)) l.
Proof. intros A B C f g l. induction l as [|a l IH]; [reflexivity|]. cbn [flat_map]. rewrite flat_map_app, IH. reflexivity. Qed.

Lemma flat_map_perm : forall {A B} (f : A -> list B) l1 l2, Permutation l1 l2 -> Permutation (flat_map f l1) (flat_map f l2).
Proof.
  intros A B f l1 l2 H. induction H; cbn [flat_map].
  - constructor.
  - apply Permutation_app_head; auto.
  - rewrite !app_assoc. apply Permutation_app_tail. apply Permutation_app_comm.
  - etransitivity; eauto.
Qed.

Lemma NoDup_map_filter : forall {A B} (g : A -> B) q l, NoDup (map g l) -> NoDup (map g (filter q l)).
Proof.
  intros A B g q l. induction l as [|a l IH]; intros H; [constructor|]. inversion H as [|? ? H1 H2]; subst.
  cbn [filter]. destruct (q a); [|auto]. cbn [map]. constructor; [|auto].
  intros C. apply H1. apply in_map_iff in C. destruct C as (x & E & Hx). apply filter_In in Hx.
  apply in_map_iff. exists x. tauto.
Qed.

Lemma NoDup_app_intro : forall {A} (l1 l2 : list A), NoDup l1 -> NoDup l2 -> (forall x, In x l1 -> ~ In x l2) -> NoDup (l1 ++ l2).
Proof.
  intros A l1 l2 H1 H2 H. induction l1 as [|a l1 IH]; [exact H2|]. inversion H1; subst.
  cbn [app]. constructor.
  - rewrite in_app_iff. intros [C|C]; [tauto|]. apply (H a); [left; auto|auto].
  - apply IH; auto. intros x Hx. apply H. right; auto.
Qed.

Lemma NoDup_app_inv : forall {A} (l1 l2 : list A), NoDup (l1 ++ l2) -> NoDup l1 /\ NoDup l2 /\ (forall x, In x l1 -> ~ In x l2).
Proof.
  intros A l1 l2. induction l1 as [|a l1 IH]; cbn [app]; intros H; [repeat split; auto; constructor|].
  inversion H as [|? ? H1 H2]; subst. destruct (IH H2) as (I1 & I2 & I3). rewrite in_app_iff in H1. repeat split; auto.
  - constructor; tauto.
  - intros x [->|Hx]; [tauto|auto].
Qed.

Lemma NoDup_flat_map : forall {A B} (f : A -> list B) l, NoDup l -> (forall a, In a l -> NoDup (f a)) ->
  (forall a b x, In a l -> In b l -> In x (f a) -> In x (f b) -> a = b) -> NoDup (flat_map f l).
Proof.
  intros A B f l. induction l as [|a l IH]; intros H1 H2 H3; [constructor|]. inversion H1; subst. cbn [flat_map].
  apply NoDup_app_intro.
  - apply H2; left; auto.
  - apply IH; auto; intros; [apply H2; right; auto|apply (H3 a0 b x); auto; right; auto].
  - intros x Hx C. apply in_flat_map in C. destruct C as (b & Hb & Hxb).
    assert (a = b) by (apply (H3 a b x); auto; [left; auto|right; auto]). subst. tauto.
Qed.

(* ---------------- slices ---------------- *)
Lemma slices_ok : forall {A} fuel step (l : list A), 0 < step -> length l <= fuel ->
  exists sl, slices fuel step l = Some sl /\ concat sl = l /\ Forall (fun s => s <> [] /\ length s <= step) sl.
Proof.
  intros A fuel. induction fuel as [|k IH]; intros step l Hs Hl.
  - destruct l; [|cbn in Hl; lia]. exists []. cbn. auto.
  - destruct l as [|a l]; [exists []; cbn; auto|]. cbn [slices].
    destruct (IH step (skipn step (a :: l)) Hs) as (sl & E & C & F).
    { rewrite skipn_length. cbn [length] in *. lia. }
    rewrite E. cbn [option_map]. eexists. split; [reflexivity|]. split.
    + cbn [concat]. rewrite C. apply firstn_skipn.
    + constructor; auto. split.
      * destruct step; [lia|]. cbn. discriminate.
      * rewrite firstn_length. lia.
Qed.

Lemma slices_zero : forall {A} fuel (l : list A), l <> [] -> slices fuel 0 l = None.
Proof.
  intros A fuel. induction fuel as [|k IH]; intros l H; destruct l as [|a l]; try congruence; [reflexivity|].
  cbn [slices firstn skipn]. rewrite IH by discriminate. reflexivity.
Qed.

(* ---------------- outcome folds ---------------- *)
Lemma ofold_app_ok : forall {A B} (f : B -> outcome (list A)) (g : B -> list A) l acc,
  (forall b, In b l -> f b = Ok (g b)) ->
  ofold (fun acc b => obind (f b) (fun r => Ok (acc ++ r))) l acc = Ok (acc ++ flat_map g l).
Proof.
  intros A B f g l. induction l as [|b l IH]; intros acc H; cbn [ofold flat_map]; [rewrite app_nil_r; reflexivity|].
  rewrite H by (left; auto). cbn [obind]. rewrite IH by (intros; apply H; right; auto). rewrite <- app_assoc. reflexivity.
Qed.

Lemma ofold_app_inv : forall {A B} (f : B -> outcome (list A)) l acc r,
  ofold (fun acc b => obind (f b) (fun r => Ok (acc ++ r))) l acc = Ok r ->
  exists rs, Forall2 (fun b x => f b = Ok x) l rs /\ r = acc ++ concat rs.
Proof.
  intros A B f l. induction l as [|b l IH]; intros acc r H; cbn [ofold] in H.
  - injection H as <-. exists []. split; [constructor|]. cbn. rewrite app_nil_r. reflexivity.
  - destruct (f b) as [x| |] eqn:E; cbn [obind] in H; try discriminate.
    apply IH in H. destruct H as (rs & H1 & ->). exists (x :: rs). split; [constructor; auto|].
    cbn [concat]. rewrite app_assoc. reflexivity.
Qed.

Section P.
  Variable R : scalar.
  Add Ring Rring2 : (k_ring R).
  Notation elem := (@elem R).

  (* ---------------- three-dimensional buffers ---------------- *)
  Lemma firstn_skipn_nth : forall (l : list R) a n i, i < n -> nth i (firstn n (skipn a l)) k0 = nth (a + i) l k0.
  Proof.
    intros l a n i H. revert l. induction a as [|a IH]; intros l.
    - cbn [skipn Nat.add]. revert i l H. induction n as [|n IHn]; intros i l H; [lia|].
      destruct l as [|x l]; [destruct i; reflexivity|]. destruct i; cbn; [reflexivity|]. apply IHn. lia.
    - destruct l as [|x l]; [|apply IH]. cbn [skipn]. rewrite firstn_nil. destruct i; destruct a; reflexivity.
  Qed.

  Lemma combine_split : forall {A} (l1 l2 : list A) (d : list R), length l1 <= length d ->
    combine (l1 ++ l2) d = combine l1 (firstn (length l1) d) ++ combine l2 (skipn (length l1) d).
  Proof.
    intros A l1. induction l1 as [|a l1 IH]; intros l2 d H; [reflexivity|].
    destruct d as [|x d]; [cbn in H; lia|]. cbn [app length combine firstn skipn]. f_equal. apply IH. cbn in H. lia.
  Qed.

  Lemma combine_rows : forall {A} (f : nat -> list A) c n a (d : list R),
    (forall i, length (f i) = c) -> length d = n * c ->
    combine (flat_map f (seq a n)) d
    = flat_map (fun i => combine (f i) (firstn c (skipn ((i - a) * c) d))) (seq a n).
  Proof.
    intros A f c n. induction n as [|n IH]; intros a d Hf Hd; [reflexivity|].
    cbn [seq flat_map]. rewrite combine_split by (rewrite Hf; cbn in Hd; lia). rewrite Hf.
    replace ((a - a) * c) with 0 by lia. cbn [skipn]. f_equal.
    rewrite (IH (S a)); auto; [|rewrite skipn_length; cbn in Hd; lia].
    apply flat_map_ext_in. intros i Hi. apply in_seq in Hi. rewrite skipn_skipn_add.
    replace ((i - S a) * c + c) with ((i - a) * c) by nia. reflexivity.
  Qed.

  Lemma combine_family : forall {A} (xs : list A) (d : list R) n, length d = length xs -> n = length xs ->
    combine xs d = map (fun kx => (snd kx, nth (fst kx) d k0)) (with_family xs).
  Proof.
    intros A xs d n H _. unfold with_family.
    assert (G : forall (xs : list A) (d pre : list R), length d = length xs ->
      combine xs d = map (fun kx : nat * A => (snd kx, nth (fst kx) (pre ++ d) k0)) (combine (seq (length pre) (length xs)) xs)).
    { clear. induction xs as [|x xs IH]; intros d pre H; [reflexivity|]. destruct d as [|v d]; [discriminate|].
      cbn [length seq combine map fst snd]. rewrite app_nth2 by lia. rewrite Nat.sub_diag. cbn [nth]. f_equal.
      rewrite (IH d (pre ++ [v])) by (cbn in H; lia). rewrite app_length. cbn [length]. rewrite Nat.add_1_r.
      apply map_ext. intros kx. rewrite <- app_assoc. reflexivity. }
    apply (G xs d []). exact H.
  Qed.

  Lemma grid_combine : forall {A B} (g : nat -> nat -> A -> B) a b (xs : list A) (data : list R),
    length data = a * b * length xs ->
    combine (flat_map (fun i => flat_map (fun j => map (g i j) xs) (seq 0 b)) (seq 0 a)) data
    = flat_map (fun i => flat_map (fun j => map (fun kx => (g i j (snd kx), elem b (length xs) data i j (fst kx)))
        (with_family xs)) (seq 0 b)) (seq 0 a).
  Proof.
    intros A B g a b xs data H.
    rewrite (combine_rows _ (b * length xs)); [| |rewrite H; lia].
    2: { intros i. assert (G : forall l, length (flat_map (fun j => map (g i j) xs) l) = length l * length xs).
         { induction l as [|x l IH]; [reflexivity|]. cbn [flat_map length]. rewrite app_length, map_length, IH. lia. }
         rewrite G, seq_length. reflexivity. }
    apply flat_map_ext_in. intros i Hi. apply in_seq in Hi. rewrite Nat.sub_0_r.
    assert (LB : i * (b * length xs) + b * length xs <= length data) by (rewrite H; nia).
    rewrite (combine_rows _ (length xs)); [| |rewrite firstn_length, skipn_length; lia].
    2: { intros j. apply map_length. }
    apply flat_map_ext_in. intros j Hj. apply in_seq in Hj. rewrite Nat.sub_0_r.
    assert (LJ : j * length xs + length xs <= b * length xs) by nia.
    rewrite (combine_family _ _ (length xs)).
    - unfold with_family. rewrite map_length.
      assert (E : forall n l, combine (seq n (length l)) (map (g i j) l) = map (fun kx => (fst kx, g i j (snd kx))) (combine (seq n (length l)) l)).
      { intros n l. revert n. induction l as [|x l IH]; intros n; [reflexivity|]. cbn [length seq map combine fst snd]. f_equal. apply IH. }
      rewrite E, map_map. cbn [fst snd]. apply map_ext_in. intros [k x] Hk. cbn [fst snd].
      apply in_combine_l in Hk. apply in_seq in Hk. f_equal.
      rewrite firstn_skipn_nth by lia. rewrite firstn_skipn_nth by nia. unfold HamiltonianSpec.elem. f_equal. nia.
    - rewrite map_length, firstn_length, skipn_length, firstn_length, skipn_length. lia.
    - rewrite map_length. reflexivity.
  Qed.

  Definition nz (t : coo * R) : bool := negb (keqb (snd t) k0).
  Definition zt (t : coo * R) : Z * Z * R := (Z.of_nat (fst (fst t)), Z.of_nat (snd (fst t)), snd t).
  Definition zz (c : coo) : Z * Z := (Z.of_nat (fst c), Z.of_nat (snd c)).

  Lemma emit_ok : forall idx (data : list R), length idx <= length data ->
    emit (map zz idx) data = Ok (map zt (filter nz (combine idx data))).
  Proof.
    intros idx. induction idx as [|c idx IH]; intros data H; [reflexivity|].
    destruct data as [|v data]; [cbn in H; lia|]. cbn [map emit combine filter]. rewrite IH by (cbn in H; lia).
    cbn [omap obind]. replace (nz (c, v)) with (negb (keqb v k0)) by reflexivity. destruct (keqb v k0); reflexivity.
  Qed.

  (* ---------------- replicated matrices ---------------- *)
  Lemma nth_mat_vals : forall (e : mat R) i j, i < m_rows e -> j < m_cols e ->
    nth (i * m_cols e + j) (mat_vals e) k0 = m_at e i j.
  Proof.
    intros e i j Hi Hj. unfold mat_vals.
    assert (G : forall n a i, i < n ->
      nth (i * m_cols e + j) (flat_map (fun i => map (m_at e i) (seq 0 (m_cols e))) (seq a n)) k0 = m_at e (a + i) j).
    { clear Hi. intros n. induction n as [|n IH]; intros a i' Hi; [lia|]. cbn [seq flat_map].
      destruct i' as [|i'].
      - rewrite app_nth1 by (rewrite map_length, seq_length; lia). cbn [Nat.mul Nat.add].
        rewrite (nth_indep _ k0 (m_at e a 0)) by (rewrite map_length, seq_length; lia).
        rewrite (map_nth (m_at e a)). rewrite seq_nth by lia. rewrite Nat.add_0_r. reflexivity.
      - rewrite app_nth2 by (rewrite map_length, seq_length; nia). rewrite map_length, seq_length.
        replace (S i' * m_cols e + j - m_cols e) with (i' * m_cols e + j) by nia.
        rewrite IH by lia. f_equal. lia. }
    rewrite G by auto. reflexivity.
  Qed.

  Lemma mat_vals_length : forall e : mat R, length (mat_vals e) = m_rows e * m_cols e.
  Proof.
    intros e. unfold mat_vals. assert (G : forall l, length (flat_map (fun i => map (m_at e i) (seq 0 (m_cols e))) l) = length l * m_cols e).
    { induction l as [|x l IH]; [reflexivity|]. cbn [flat_map length]. rewrite app_length, map_length, seq_length, IH. lia. }
    rewrite G, seq_length. reflexivity.
  Qed.

  Lemma replicate_length : forall (f : R -> R) n l, length (flat_map (fun v => repeat (f v) n) l) = length l * n.
  Proof. intros f n l. induction l as [|x l IH]; [reflexivity|]. cbn [flat_map length]. rewrite app_length, repeat_length, IH. lia. Qed.

  Lemma nth_replicate : forall (f : R -> R) n l p k, p < length l -> k < n ->
    nth (p * n + k) (flat_map (fun v => repeat (f v) n) l) k0 = f (nth p l k0).
  Proof.
    intros f n l. induction l as [|x l IH]; intros p k Hp Hk; [cbn in Hp; lia|]. cbn [flat_map].
    destruct p as [|p].
    - rewrite app_nth1 by (rewrite repeat_length; lia). cbn [Nat.mul Nat.add nth]. apply nth_repeat_lt. exact Hk.
    - rewrite app_nth2 by (rewrite repeat_length; nia). rewrite repeat_length.
      replace (S p * n + k - n) with (p * n + k) by nia. cbn [nth]. apply IH; cbn in Hp; lia.
  Qed.

  Lemma elem_replicate : forall (f : R -> R) (e : mat R) n i j k, i < m_rows e -> j < m_cols e -> k < n ->
    elem (m_cols e) n (flat_map (fun v => repeat (f v) n) (mat_vals e)) i j k = f (m_at e i j).
  Proof.
    intros f e n i j k Hi Hj Hk. unfold HamiltonianSpec.elem. rewrite nth_replicate; auto.
    - rewrite nth_mat_vals; auto.
    - rewrite mat_vals_length. nia.
  Qed.

  Lemma fill_ok : forall n vals (pre post : list R), length post = length vals * n ->
    fill_segments (pre ++ post) (length pre) n vals = Ok (pre ++ flat_map (fun v => repeat v n) vals).
  Proof.
    intros n vals. induction vals as [|v vals IH]; intros pre post H.
    - destruct post; [|discriminate]. reflexivity.
    - cbn [fill_segments flat_map length] in *. destruct (Nat.leb_spec (length pre + n) (length (pre ++ post))) as [_|B];
        [|rewrite app_length in B; lia].
      assert (L : length (firstn n post) = n) by (rewrite firstn_length; lia).
      rewrite <- (firstn_skipn n post) at 1. rewrite set_segment_spec by exact L.
      rewrite (app_assoc pre).
      replace (length pre + n) with (length (pre ++ repeat v n)) by (rewrite app_length, repeat_length; lia).
      rewrite IH by (rewrite skipn_length; lia). rewrite <- app_assoc. reflexivity.
  Qed.

  (* ---------------- sparse matrix ---------------- *)
  Lemma coeff_app : forall m1 m2 i j, coeff (m1 ++ m2) i j = kadd (coeff (R := R) m1 i j) (coeff m2 i j).
  Proof. intros. apply ksum_app. Qed.

  Lemma coeff_perm : forall m1 m2 i j, Permutation m1 m2 -> coeff (R := R) m1 i j = coeff m2 i j.
  Proof. intros. apply ksum_perm. assumption. Qed.

  Lemma coeff_nz : forall m i j, coeff (R := R) (filter nz m) i j = coeff m i j.
  Proof.
    intros m i j. unfold coeff. induction m as [|e m IH]; [reflexivity|]. cbn [filter]. unfold nz at 1.
    destruct (keqb (snd e) k0) eqn:E; cbn [negb]; rewrite !ksum_cons, IH; [|reflexivity].
    apply (keqb_eq R) in E. destruct (coo_eqb (fst e) (i, j)); rewrite ?E; ring.
  Qed.

  Definition in_mat (n : nat) (t : coo * R) : Prop := fst (fst t) < n /\ snd (fst t) < n.

  Lemma put_ok : forall strict n m t, in_mat n t -> (strict = true -> ~ In (fst t) (map fst m)) ->
    put strict n m (zt t) = Ok (m ++ [t]).
  Proof.
    intros strict n m [[i j] v] [H1 H2] H3. cbn [fst snd] in *. unfold put, zt. cbn [fst snd].
    destruct (Z.leb_spec 0 (Z.of_nat i)); [|lia]. destruct (Z.ltb_spec (Z.of_nat i) (Z.of_nat n)); [|lia].
    destruct (Z.leb_spec 0 (Z.of_nat j)); [|lia]. destruct (Z.ltb_spec (Z.of_nat j) (Z.of_nat n)); [|lia].
    cbn [andb]. rewrite !Nat2Z.id. destruct strict; cbn [andb]; [|reflexivity].
    destruct (existsb _ m) eqn:E; [|reflexivity]. exfalso. apply existsb_exists in E. destruct E as (e & He & Ee).
    destruct (coo_eqb_spec (fst e) (i, j)); [|discriminate]. apply (H3 eq_refl). rewrite <- e0. apply in_map. exact He.
  Qed.

  Lemma puts_ok : forall strict n ts m, Forall (in_mat n) ts -> (strict = true -> NoDup (map fst (m ++ ts))) ->
    ofold (put strict n) (map zt ts) m = Ok (m ++ ts).
  Proof.
    intros strict n ts. induction ts as [|t ts IH]; intros m H1 H2; [cbn; rewrite app_nil_r; reflexivity|].
    inversion H1; subst. cbn [map ofold]. rewrite put_ok; auto.
    - cbn [obind]. rewrite IH; auto; rewrite <- app_assoc; auto.
    - intros Hs. specialize (H2 Hs). rewrite map_app in H2. cbn [map] in H2. apply NoDup_remove_2 in H2.
      intros C. apply H2. apply in_or_app. left. exact C.
  Qed.

  Lemma put_inv : forall strict n m t m', put (R := R) strict n m t = Ok m' ->
    exists e, t = zt e /\ in_mat n e /\ m' = m ++ [e].
  Proof.
    intros strict n m [[i j] v] m' H. unfold put in H.
    destruct (((0 <=? i) && (i <? Z.of_nat n) && (0 <=? j) && (j <? Z.of_nat n))%Z) eqn:B; [|discriminate].
    rewrite !andb_true_iff, !Z.leb_le, !Z.ltb_lt in B. destruct (strict && _) eqn:S; [discriminate|]. injection H as <-.
    exists ((Z.to_nat i, Z.to_nat j), v). unfold zt, in_mat. cbn [fst snd]. rewrite !Z2Nat.id by lia.
    split; [reflexivity|]. split; [lia|reflexivity].
  Qed.

  Lemma puts_inv : forall strict n ts m m', ofold (put (R := R) strict n) ts m = Ok m' ->
    exists es, ts = map zt es /\ Forall (in_mat n) es /\ m' = m ++ es.
  Proof.
    intros strict n ts. induction ts as [|t ts IH]; intros m m' H; cbn [ofold] in H.
    - injection H as <-. exists []. rewrite app_nil_r. auto.
    - destruct (put strict n m t) as [m1| |] eqn:E; cbn [obind] in H; try discriminate.
      apply put_inv in E. destruct E as (e & -> & He & ->). apply IH in H. destruct H as (es & -> & Hes & ->).
      exists (e :: es). rewrite <- app_assoc. auto.
  Qed.

  (** Entries together with their conjugates. *)
  Definition flip (cj : R -> R) (t : coo * R) : coo * R := ((snd (fst t), fst (fst t)), cj (snd t)).
  Definition bothn (cj : R -> R) (t : coo * R) : list (coo * R) := [t; flip cj t].

  Lemma both_zt : forall cj ts, flat_map (both cj) (map zt ts) = map zt (flat_map (bothn cj) ts).
  Proof. intros cj ts. rewrite flat_map_map, map_flat_map. apply flat_map_ext. intros [[i j] v]. reflexivity. Qed.

  Lemma bothn_perm : forall cj ts, Permutation (flat_map (bothn cj) ts) (ts ++ map (flip cj) ts).
  Proof.
    intros cj ts. induction ts as [|t ts IH]; [constructor|]. cbn [flat_map map app bothn]. constructor.
    rewrite IH. apply Permutation_middle.
  Qed.

  Lemma coeff_bothn : forall cj ts i j,
    coeff (flat_map (bothn cj) ts) i j = kadd (coeff ts i j) (coeff (map (flip cj) ts) i j).
  Proof. intros. rewrite (coeff_perm _ _ _ _ (bothn_perm cj ts)). apply coeff_app. Qed.

  Lemma coo_eqb_flip : forall (a b i j : nat), coo_eqb (b, a) (i, j) = coo_eqb (a, b) (j, i).
  Proof. intros. unfold coo_eqb. cbn [fst snd]. apply andb_comm. Qed.

  Lemma coeff_flip : forall cj ts i j, cj k0 = k0 -> (forall x y, cj (kadd x y) = kadd (cj x) (cj y)) ->
    coeff (map (flip cj) ts) i j = cj (coeff ts j i).
  Proof.
    intros cj ts i j H0 Ha. unfold coeff. induction ts as [|[[a b] v] ts IH]; [symmetry; exact H0|].
    cbn [map]. rewrite !ksum_cons, Ha, <- IH. f_equal. unfold flip. cbn [fst snd]. rewrite coo_eqb_flip.
    destruct (coo_eqb (a, b) (j, i)); [reflexivity|symmetry; exact H0].
  Qed.
End P.
Arguments zt {R}. Arguments nz {R}. Arguments in_mat {R}. Arguments flip {R}. Arguments bothn {R}.
