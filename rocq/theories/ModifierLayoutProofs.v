From Verif Require Import Base ModifierLayout ModifierLayoutSpec.
From Coq Require Import Psatz.
Local Open Scope Z_scope.

Section P.
  Context {A : Type}.
  Variable dflt : A.
  Notation elem := (elem dflt). Notation copy_with := (copy_with dflt).

  Lemma getv_some : forall (b : list A) a, 0 <= a < Z.of_nat (length b) -> exists x, getv b a = Some x.
  Proof.
    intros b a H. unfold getv. destruct (Z.ltb_spec a 0); [lia|].
    destruct (nth_error b (Z.to_nat a)) eqn:E; [eauto|]. apply nth_error_None in E. lia.
  Qed.
  Lemma getv_nth : forall (b : list A) a, 0 <= a -> getv b a = nth_error b (Z.to_nat a).
  Proof. intros b a H. unfold getv. destruct (Z.ltb_spec a 0); [lia|reflexivity]. Qed.

  Lemma read_raw_ok : forall n (b : list A) off, 0 <= off -> off + Z.of_nat n <= Z.of_nat (length b) ->
    exists l, read_raw b off n = Ok l /\ length l = n /\ forall k, (k < n)%nat -> nth_error l k = getv b (off + Z.of_nat k).
  Proof.
    induction n as [|n IH]; intros b off H0 H; cbn [read_raw].
    - exists []. repeat split; intros; lia.
    - destruct (getv_some b off ltac:(lia)) as [x Hx]. rewrite Hx.
      destruct (IH b (off + 1) ltac:(lia) ltac:(lia)) as [l [Hl [L K]]]. rewrite Hl. exists (x :: l). cbn.
      repeat split; [lia|]. intros [|k] Hk; cbn; [rewrite Z.add_0_r; auto|].
      rewrite K by lia. f_equal. lia.
  Qed.

  Lemma copy_nth : forall mem v st a, 0 <= a < size v ->
    getv (buffer mem (copy_with mem v st)) a = Some (elem mem v (decode (v_shape v) st a)).
  Proof.
    intros mem v st a H. rewrite getv_nth by lia. unfold buffer, ModifierLayout.copy_with, addresses. cbn [v_buf].
    rewrite map_map. rewrite nth_error_map, nth_error_nth' with (d := O) by (rewrite seq_length; lia).
    rewrite seq_nth by lia. cbn. now rewrite Z2Nat.id by lia.
  Qed.
  Lemma copy_len : forall mem v st, 0 <= size v -> Z.of_nat (length (buffer mem (copy_with mem v st))) = size v.
  Proof. intros. unfold buffer, ModifierLayout.copy_with, addresses. cbn. rewrite !map_length, seq_length. lia. Qed.

  (** C++ copies a gapless buffer as it is *)
  Lemma extract_copy : forall mem v st, 0 <= size v -> size v = Z.of_nat (length mem) ->
    exists out, extract mem (copy_with mem v st) = Ok out /\ Z.of_nat (length out) = size v /\
      forall a, 0 <= a < size v -> nth_error out (Z.to_nat a) = Some (elem mem v (decode (v_shape v) st a)).
  Proof.
    intros mem v st H0 HS. unfold extract. cbn [v_buf v_off ModifierLayout.copy_with].
    replace (size (copy_with mem v st) =? Z.of_nat (length mem)) with true
      by (symmetry; apply Z.eqb_eq; exact HS). cbn [negb].
    pose proof (copy_len mem v st H0) as CL. unfold buffer in CL. cbn [v_buf ModifierLayout.copy_with] in CL.
    match type of CL with Z.of_nat (length ?b) = _ => set (bf := b) in * end.
    destruct (read_raw_ok (length mem) bf 0 ltac:(lia) ltac:(lia)) as [l [Hl [L K]]].
    exists l. repeat split; [exact Hl|lia|]. intros a Ha.
    rewrite K by lia. rewrite Z2Nat.id by lia. apply (copy_nth mem v st a). lia.
  Qed.

  Lemma div_step : forall q r d, 0 <= r < d -> (q * d + r) / d = q.
  Proof. intros. symmetry. apply Z.div_unique with r; nia. Qed.
  Lemma mod_step : forall q r d, 0 <= r < d -> (q * d + r) mod d = r.
  Proof. intros. symmetry. apply Z.mod_unique with q; nia. Qed.

  (** digits of an address in mixed radix *)
  Lemma digits : forall n1 n2 ns i j s, 0 <= s < ns -> 0 <= i < n1 -> 0 <= j < n2 ->
    let a := (i * n2 + j) * ns + s in
    (a / 1) mod ns = s /\ (a / ns) mod n2 = j /\ (a / (n2 * ns)) mod n1 = i /\ 0 <= a < n1 * n2 * ns.
  Proof.
    intros n1 n2 ns i j s Hs Hi Hj a. unfold a.
    repeat split.
    - rewrite Z.div_1_r. now apply mod_step.
    - rewrite div_step by lia. now apply mod_step.
    - rewrite (Z.mul_comm n2 ns), <- Z.div_div by lia. rewrite !div_step by lia. apply Z.mod_small. lia.
    - assert (0 <= i * n2) by (apply Z.mul_nonneg_nonneg; lia). assert (0 <= (i * n2 + j) * ns) by (apply Z.mul_nonneg_nonneg; lia). lia.
    - assert (i * n2 + j + 1 <= n1 * n2) by nia. assert ((i * n2 + j + 1) * ns <= n1 * n2 * ns) by (apply Z.mul_le_mono_nonneg_r; lia). lia.
  Qed.

  Lemma inside3 : forall a b c i j k, 0 <= i < a -> 0 <= j < b -> 0 <= k < c -> inside [a; b; c] [i; j; k].
  Proof. intros. repeat constructor; lia. Qed.

  (** a new C ordered array shows the elements of the old one *)
  Lemma elem_c_copy : forall mem v a b c i j k, v_shape v = [a; b; c] -> 0 <= i < a -> 0 <= j < b -> 0 <= k < c ->
    elem mem (copy_with mem v (c_strides [a; b; c])) [i; j; k] = elem mem v [i; j; k].
  Proof.
    intros mem v a b c i j k HS Hi Hj Hk. unfold ModifierLayout.elem at 1.
    pose proof (digits a b c i j k Hk Hi Hj) as D. cbv zeta in D. destruct D as [D1 [D2 [D3 D4]]].
    assert (SZ : size v = a * b * c) by (unfold size; rewrite HS; cbn [prodz fold_right]; ring).
    assert (AD : address (copy_with mem v (c_strides [a; b; c])) [i; j; k] = (i * b + j) * c + k).
    { unfold address. cbn [v_off v_strides ModifierLayout.copy_with c_strides dotz prodz fold_right]. ring. }
    rewrite AD, copy_nth by lia. rewrite HS. cbn [decode c_strides prodz fold_right].
    rewrite !Z.mul_1_r, D3, D2, D1. reflexivity.
  Qed.

  (** the axes of a new C contiguous array are moved back *)
  Lemma moved_back : forall mem v ns n1 n2 s0 s1 s2, v_shape v = [ns; n1; n2] -> v_strides v = [s0; s1; s2] ->
    0 <= ns -> 0 <= n1 -> 0 <= n2 -> n1 * n2 * ns = Z.of_nat (length mem) ->
    v_own v = true -> c_contiguous v = true ->
    exists out, extract mem (moveaxis dflt mem v) = Ok out /\ stored_3d dflt mem v ns n1 n2 out.
  Proof.
    intros mem v ns n1 n2 s0 s1 s2 HS HT H0 H1 H2 HL HO HC. unfold moveaxis. rewrite HO, HC, HS. cbn [length Nat.eqb andb].
    unfold moveaxis02. rewrite HS, HT. cbv zeta. cbn [v_shape].
    set (m := View _ _ _ _ _ _).
    assert (SZ : size m = n1 * n2 * ns) by (unfold size, m; cbn [v_shape prodz fold_right]; ring).
    destruct (extract_copy mem m (c_strides [n1; n2; ns]) ltac:(rewrite ?SZ; repeat apply Z.mul_nonneg_nonneg; lia) ltac:(lia)) as [out [E [L K]]].
    exists out. split; [exact E|]. split; [lia|]. intros s i j Hs Hi Hj.
    pose proof (digits n1 n2 ns i j s Hs Hi Hj) as D. cbv zeta in D. destruct D as [D1 [D2 [D3 D4]]].
    rewrite K by lia. f_equal. unfold m at 2. cbn [v_shape decode c_strides prodz fold_right].
    rewrite !Z.mul_1_r, D3, D2, D1. unfold ModifierLayout.elem, address, m, buffer. cbn [v_off v_strides v_buf dotz]. rewrite HT.
    cbn [dotz]. replace (i * s1 + (j * s2 + (s * s0 + 0))) with (s * s0 + (i * s1 + (j * s2 + 0))) by ring. reflexivity.
  Qed.

  (** the site varies fastest: the layout of the memory of C++ *)
  Definition site_fastest (v : view A) (ns n1 n2 : Z) : Prop := v_strides v = [1; n2 * ns; ns].

  Lemma no_size : forall mem (v : view A) ns n1 n2, v_shape v = [ns; n1; n2] -> mem = [] -> 0 = n1 * n2 * ns ->
    0 <= ns -> 0 <= n1 -> 0 <= n2 -> stored_3d dflt mem v ns n1 n2 [].
  Proof. intros. split; [cbn; lia|]. intros s i j Hs Hi Hj. assert (0 < n1 * n2 * ns) by (repeat apply Z.mul_pos_pos; lia). lia. Qed.

  (** contiguous memory in the order of C++ is taken as it is *)
  Lemma taken_as_is : forall mem v ns n1 n2, v_shape v = [ns; n1; n2] -> site_fastest v ns n1 n2 ->
    0 < ns -> 0 < n1 -> 0 < n2 -> n1 * n2 * ns = Z.of_nat (length mem) -> valid mem v ->
    exists out, extract mem v = Ok out /\ stored_3d dflt mem v ns n1 n2 out.
  Proof.
    intros mem v ns n1 n2 HS HT H0 H1 H2 HL [_ V]. rewrite HS in V. unfold site_fastest in HT.
    assert (SZ : size v = n1 * n2 * ns) by (unfold size; rewrite HS; cbn [prodz fold_right]; ring).
    assert (AD : forall s i j, address v [s; i; j] = v_off v + ((i * n2 + j) * ns + s)).
    { intros. unfold address. rewrite HT. cbn [dotz]. ring. }
    pose proof (V _ (inside3 ns n1 n2 0 0 0 ltac:(lia) ltac:(lia) ltac:(lia))) as V0. rewrite AD in V0.
    pose proof (V _ (inside3 ns n1 n2 (ns - 1) (n1 - 1) (n2 - 1) ltac:(lia) ltac:(lia) ltac:(lia))) as V1. rewrite AD in V1.
    assert (TOP : v_off v + n1 * n2 * ns <= Z.of_nat (length (buffer mem v))) by nia.
    assert (EL : forall s i j, 0 <= s < ns -> 0 <= i < n1 -> 0 <= j < n2 ->
      getv (buffer mem v) (v_off v + ((i * n2 + j) * ns + s)) = Some (elem mem v [s; i; j])).
    { intros s i j Hs Hi Hj. unfold ModifierLayout.elem. rewrite AD.
      destruct (getv_some (buffer mem v) (v_off v + ((i * n2 + j) * ns + s))) as [x ->]; [|reflexivity].
      pose proof (V _ (inside3 ns n1 n2 s i j Hs Hi Hj)) as VV. rewrite AD in VV. lia. }
    unfold extract. rewrite SZ, HL, Z.eqb_refl. cbn [negb].
    assert (GEN : exists out, read_raw (buffer mem v) (v_off v) (length mem) = Ok out /\ stored_3d dflt mem v ns n1 n2 out).
    { destruct (read_raw_ok (length mem) (buffer mem v) (v_off v) ltac:(lia) ltac:(lia)) as [l [Hl [L K]]].
      exists l. split; [exact Hl|]. split; [lia|]. intros s i j Hs Hi Hj.
      pose proof (digits n1 n2 ns i j s Hs Hi Hj) as D. cbv zeta in D. destruct D as [_ [_ [_ D4]]].
      rewrite K by lia. rewrite Z2Nat.id by lia. now apply EL. }
    unfold buffer in GEN at 1. destruct (v_buf v) as [b|] eqn:EB; [exact GEN|].
    destruct (v_off v =? 0) eqn:EO; [|exact GEN].
    apply Z.eqb_eq in EO. exists mem. split; [reflexivity|]. split; [lia|]. intros s i j Hs Hi Hj.
    rewrite <- EL by assumption. unfold buffer. rewrite EB, EO, Z.add_0_l.
    pose proof (digits n1 n2 ns i j s Hs Hi Hj) as D. cbv zeta in D. symmetry. apply getv_nth. tauto.
  Qed.

  Lemma stored_copy : forall mem v ns n1 n2 st out,
    (forall s i j, 0 <= s < ns -> 0 <= i < n1 -> 0 <= j < n2 ->
       elem mem (copy_with mem v st) [s; i; j] = elem mem v [s; i; j]) ->
    stored_3d dflt mem (copy_with mem v st) ns n1 n2 out -> stored_3d dflt mem v ns n1 n2 out.
  Proof. intros mem v ns n1 n2 st out E [L K]. split; [exact L|]. intros. rewrite <- E by assumption. now apply K. Qed.

  (** a gapless copy in site-fastest order is stored rightly *)
  Lemma site_copy : forall mem v ns n1 n2 st, v_shape v = [ns; n1; n2] -> 0 < ns -> 0 < n1 -> 0 < n2 ->
    n1 * n2 * ns = Z.of_nat (length mem) ->
    (forall s i j, 0 <= s < ns -> 0 <= i < n1 -> 0 <= j < n2 ->
      decode [ns; n1; n2] st ((i * n2 + j) * ns + s) = [s; i; j]) ->
    exists out, extract mem (copy_with mem v st) = Ok out /\ stored_3d dflt mem v ns n1 n2 out.
  Proof.
    intros mem v ns n1 n2 st HS H0 H1 H2 HL HD.
    assert (SZ : size v = n1 * n2 * ns) by (unfold size; rewrite HS; cbn [prodz fold_right]; ring).
    destruct (extract_copy mem v st ltac:(rewrite ?SZ; repeat apply Z.mul_nonneg_nonneg; lia) ltac:(lia)) as [out [E [L K]]].
    exists out. split; [exact E|]. split; [lia|]. intros s i j Hs Hi Hj.
    pose proof (digits n1 n2 ns i j s Hs Hi Hj) as D. cbv zeta in D. destruct D as [_ [_ [_ D4]]].
    rewrite K by lia. rewrite HS, HD by assumption. reflexivity.
  Qed.
End P.
