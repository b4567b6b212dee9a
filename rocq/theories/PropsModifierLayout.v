(* C79: the numbers that a modifier function returns are the ones that are stored *)
From Verif Require Import Base ModifierLayout ModifierLayoutSpec ModifierLayoutProofs.
From Coq Require Import Psatz.
Local Open Scope Z_scope.

(** ** The full claim *)

(** Any array of the shape of the argument is stored element by element. *)
Definition C79_claim : Prop :=
  forall (A : Type) (dflt : A) (mem : list A) (v : view A) (ns n1 n2 : Z),
    v_shape v = [ns; n1; n2] -> 0 < ns -> 0 < n1 -> 0 < n2 ->
    n1 * n2 * ns = Z.of_nat (length mem) -> valid mem v ->
    exists out, take_result dflt mem v = Ok out /\ stored_3d dflt mem v ns n1 n2 out.
Definition C79_claim_1d : Prop :=
  forall (A : Type) (dflt : A) (mem : list A) (v : view A) (ns : Z),
    v_shape v = [ns] -> 0 < ns -> ns = Z.of_nat (length mem) -> valid mem v ->
    exists out, take_result dflt mem v = Ok out /\ stored_1d dflt mem v ns out.

(** ** What is proved *)

Theorem C79_partial : forall (A : Type) (dflt : A) (mem : list A) (v : view A) (ns n1 n2 : Z),
  v_shape v = [ns; n1; n2] -> 0 < ns -> 0 < n1 -> 0 < n2 ->
  n1 * n2 * ns = Z.of_nat (length mem) -> valid mem v ->
  (* a new C ordered array (np.zeros, np.array, ...), or a C ordered array of another precision, *)
  (c_contig (v_shape v) (v_strides v) = true /\ (v_own v = true \/ v_same v = false)
   (* or an array in the order of the argument: the argument itself or an expression in it *)
   \/ v_strides v = [1; n2 * ns; ns]) ->
  exists out, take_result dflt mem v = Ok out /\ stored_3d dflt mem v ns n1 n2 out.
Proof.
  intros A dflt mem v ns n1 n2 HS H0 H1 H2 HL V G. unfold take_result, sanitize.
  assert (SZ : size v = n1 * n2 * ns) by (unfold size; rewrite HS; cbn [prodz fold_right]; ring).
  assert (ST : exists s0 s1 s2, v_strides v = [s0; s1; s2]).
  { destruct V as [L _]. rewrite HS in L. destruct (v_strides v) as [|x [|y [|z [|? ?]]]]; try discriminate L. eauto. }
  destruct ST as [s0 [s1 [s2 ST]]].
  rewrite SZ, HL, Z.eqb_refl. cbn [negb obind]. unfold cast. destruct (v_same v) eqn:EQ.
  - destruct G as [[HC [HO|HO]]|HF]; [|discriminate HO|].
    + apply (moved_back dflt mem v ns n1 n2 s0 s1 s2); auto; try lia. unfold c_contiguous. rewrite HC. apply orb_true_r.
    + destruct ((length (v_shape v) =? 3)%nat && v_own v && c_contiguous v) eqn:EM.
      * apply andb_true_iff in EM. destruct EM as [EM HC]. apply andb_true_iff in EM. destruct EM as [_ HO].
        apply (moved_back dflt mem v ns n1 n2 s0 s1 s2); auto; lia.
      * unfold moveaxis. rewrite EM. apply taken_as_is; auto.
  - destruct (c_contiguous v) eqn:HC.
    + assert (KS : k_strides v = c_strides [ns; n1; n2]) by (unfold k_strides; rewrite HC, HS; reflexivity).
      rewrite KS.
      destruct (moved_back dflt mem (copy_with dflt mem v (c_strides [ns; n1; n2])) ns n1 n2 (n1 * (n2 * 1)) (n2 * 1) 1) as [out [E S]];
        try reflexivity; auto; try lia.
      { unfold c_contiguous. cbn [copy_with v_shape v_strides]. rewrite HS. cbn [c_contig c_strides prodz fold_right].
        rewrite !Z.eqb_refl. rewrite !orb_true_r. reflexivity. }
      exists out. split; [exact E|]. apply (stored_copy dflt mem v ns n1 n2 (c_strides [ns; n1; n2])); [|exact S].
      intros. apply elem_c_copy; auto.
    + destruct G as [[G _]|HF]; [unfold c_contiguous in HC; rewrite G, orb_true_r in HC; discriminate HC|].
      assert (NZ : size v =? 0 = false).
      { apply Z.eqb_neq. rewrite SZ. assert (0 < n1 * n2 * ns) by (repeat apply Z.mul_pos_pos; lia). lia. }
      assert (NC : c_contig [ns; n1; n2] [1; n2 * ns; ns] = false).
      { unfold c_contiguous in HC. rewrite NZ, HS, HF in HC. exact HC. }
      cbn [c_contig prodz fold_right] in NC.
      assert (NS : ns <> 1).
      { intro. subst ns. rewrite !Z.mul_1_r, !Z.eqb_refl in NC. rewrite !orb_true_r in NC. discriminate NC. }
      assert (GOAL : forall st, (forall s i j, 0 <= s < ns -> 0 <= i < n1 -> 0 <= j < n2 ->
          decode [ns; n1; n2] st ((i * n2 + j) * ns + s) = [s; i; j]) ->
          c_contiguous (copy_with dflt mem v st) = false \/ c_contiguous (copy_with dflt mem v st) = true ->
          (c_contiguous (copy_with dflt mem v st) = true -> forall s i j, 0 <= s < ns -> 0 <= i < n1 -> 0 <= j < n2 ->
            elem dflt mem (copy_with dflt mem v st) [s; i; j] = elem dflt mem v [s; i; j]) ->
          length st = 3%nat ->
          exists out, extract mem (moveaxis dflt mem (copy_with dflt mem v st)) = Ok out /\ stored_3d dflt mem v ns n1 n2 out).
      { intros st HD HH HE LS. destruct HH as [HH|HH].
        - unfold moveaxis. rewrite HH, andb_false_r. apply site_copy; auto.
        - destruct st as [|t0 [|t1 [|t2 [|? ?]]]]; try discriminate LS.
          destruct (moved_back dflt mem (copy_with dflt mem v [t0; t1; t2]) ns n1 n2 t0 t1 t2) as [out [E S]]; auto; try lia.
          exists out. split; [exact E|]. apply (stored_copy dflt mem v ns n1 n2 [t0; t1; t2]); auto. }
      assert (DEC : forall s i j, 0 <= s < ns -> 0 <= i < n1 -> 0 <= j < n2 ->
          decode [ns; n1; n2] [1; n2 * ns; ns] ((i * n2 + j) * ns + s) = [s; i; j]).
      { intros s i j Hs Hi Hj. pose proof (digits n1 n2 ns i j s Hs Hi Hj) as D. cbv zeta in D. destruct D as [D1 [D2 [D3 _]]].
        cbn [decode]. rewrite D1, D2, D3. reflexivity. }
      assert (BOTH : forall b : bool, b = false \/ b = true) by (intros []; auto).
      assert (EL : forall st, (forall s i j, 0 <= s < ns -> 0 <= i < n1 -> 0 <= j < n2 ->
           dotz [s; i; j] st = (i * n2 + j) * ns + s) ->
         (forall s i j, 0 <= s < ns -> 0 <= i < n1 -> 0 <= j < n2 ->
          decode [ns; n1; n2] st ((i * n2 + j) * ns + s) = [s; i; j]) ->
         forall s i j, 0 <= s < ns -> 0 <= i < n1 -> 0 <= j < n2 ->
            elem dflt mem (copy_with dflt mem v st) [s; i; j] = elem dflt mem v [s; i; j]).
      { intros st HA HD s i j Hs Hi Hj. unfold elem at 1.
        pose proof (digits n1 n2 ns i j s Hs Hi Hj) as D. cbv zeta in D. destruct D as [_ [_ [_ D4]]].
        replace (address (copy_with dflt mem v st) [s; i; j]) with ((i * n2 + j) * ns + s)
          by (unfold address; cbn [copy_with v_off v_strides]; rewrite HA by assumption; ring).
        rewrite copy_nth by lia. rewrite HS, HD by assumption. reflexivity. }
      unfold k_strides. rewrite HC, HS. cbn [length Nat.leb orb].
      destruct (f_contiguous v) eqn:HFC.
      * (* Fortran order: one of the two orbital axes has length 1 *)
        unfold f_contiguous in HFC. rewrite NZ, HS, HF in HFC. cbn [orb rev app c_contig prodz fold_right] in HFC.
        rewrite !Z.mul_1_r in HFC. unfold f_strides. cbn [rev app c_strides prodz fold_right]. rewrite !Z.mul_1_r.
        assert (ONE : n1 = 1 \/ n2 = 1).
        { apply andb_true_iff in HFC. destruct HFC as [HFC HX]. apply andb_true_iff in HFC. destruct HFC as [_ HY].
          apply orb_true_iff in HX, HY. rewrite !Z.eqb_eq in *. destruct HY as [HY|HY]; [left; lia|]. right. nia. }
        assert (FD : forall s i j, 0 <= s < ns -> 0 <= i < n1 -> 0 <= j < n2 ->
          decode [ns; n1; n2] [1; ns; n1 * ns] ((i * n2 + j) * ns + s) = [s; i; j]).
        { intros s i j Hs Hi Hj. destruct ONE as [ONE|ONE]; subst.
          - assert (i = 0) by lia. subst i. rewrite <- (DEC s 0 j Hs Hi Hj). cbn [decode]. rewrite !Z.mod_1_r, !Z.mul_1_l. reflexivity.
          - assert (j = 0) by lia. subst j. rewrite <- (DEC s i 0 Hs Hi Hj). cbn [decode]. rewrite !Z.mod_1_r, !Z.mul_1_l. reflexivity. }
        apply GOAL; auto. intros _. apply EL; [|exact FD].
        intros s i j Hs Hi Hj. cbn [dotz]. destruct ONE as [ONE|ONE]; subst.
        -- assert (i = 0) by lia. subst i. ring.
        -- assert (j = 0) by lia. subst j. ring.
      * (* sorted strides *)
        assert (SS : sorted_strides [ns; n1; n2] (v_strides v) = [1; n2 * ns; ns]).
        { rewrite HF. unfold sorted_strides. cbn [length seq map]. unfold inner. cbn [nth].
          assert (X1 : Z.abs ns = ns) by lia. assert (X2 : Z.abs (n2 * ns) = n2 * ns) by nia. rewrite X1, X2.
          cbn [Z.abs Nat.ltb Nat.leb].
          assert (B1 : (ns <? 1) = false) by (apply Z.ltb_ge; lia).
          assert (B2 : (n2 * ns <? 1) = false) by (apply Z.ltb_ge; nia).
          assert (B3 : (ns =? 1) = false) by (apply Z.eqb_neq; lia).
          assert (B4 : (n2 * ns =? 1) = false) by (apply Z.eqb_neq; nia).
          assert (B5 : (1 <? ns) = true) by (apply Z.ltb_lt; lia).
          assert (B6 : (1 <? n2 * ns) = true) by (apply Z.ltb_lt; nia).
          assert (B7 : (n2 * ns <? ns) = false) by (apply Z.ltb_ge; nia).
          assert (B8 : (ns <? n2 * ns) || (ns =? n2 * ns) = true).
          { apply orb_true_iff. rewrite Z.ltb_lt, Z.eqb_eq. assert (ns <= n2 * ns) by nia. lia. }
          rewrite !B1, !B2, !B3, !B4, !B5, !B6, !B7, !Z.ltb_irrefl, !andb_false_r, !andb_true_r, !B8. cbn [orb prodz fold_right].
          f_equal. f_equal; [ring|]. f_equal. ring. }
        rewrite SS. apply GOAL; auto. intros _. apply EL; [|exact DEC]. intros. cbn [dotz]. ring.
Qed.

(** Single orbitals: gapless arrays, and all arrays of another precision *)
Theorem C79_1d_partial : forall (A : Type) (dflt : A) (mem : list A) (v : view A) (ns : Z),
  v_shape v = [ns] -> 0 < ns -> ns = Z.of_nat (length mem) -> valid mem v ->
  v_strides v = [1] \/ v_same v = false ->
  exists out, take_result dflt mem v = Ok out /\ stored_1d dflt mem v ns out.
Proof.
  intros A dflt mem v ns HS H0 HL [VL V] G. unfold take_result, sanitize.
  assert (SZ : size v = ns) by (unfold size; rewrite HS; cbn [prodz fold_right]; ring).
  rewrite SZ, HL, Z.eqb_refl. cbn [negb obind]. unfold cast. destruct (v_same v) eqn:EQ.
  - destruct G as [G|G]; [|discriminate G]. unfold moveaxis. rewrite HS. cbn [length Nat.eqb andb].
    assert (AD : forall s, address v [s] = v_off v + s) by (intro; unfold address; rewrite G; cbn [dotz]; ring).
    assert (IN : forall s, 0 <= s < ns -> 0 <= v_off v + s < Z.of_nat (length (buffer mem v))).
    { intros s Hs. rewrite <- AD. apply V. rewrite HS. repeat constructor; lia. }
    pose proof (IN 0 ltac:(lia)). pose proof (IN (ns - 1) ltac:(lia)).
    assert (GEN : exists out, read_raw (buffer mem v) (v_off v) (length mem) = Ok out /\ stored_1d dflt mem v (Z.of_nat (length mem)) out).
    { destruct (read_raw_ok (length mem) (buffer mem v) (v_off v) ltac:(lia) ltac:(lia)) as [l [Hl [L K]]].
      exists l. split; [exact Hl|]. split; [lia|]. intros s Hs. rewrite K by lia. rewrite Z2Nat.id by lia.
      unfold elem. rewrite AD. destruct (getv_some (buffer mem v) (v_off v + s)) as [x ->]; [apply IN; lia|reflexivity]. }
    unfold extract. replace (size v =? Z.of_nat (length mem)) with true by (symmetry; apply Z.eqb_eq; lia). cbn [negb].
    unfold buffer in GEN at 1. destruct (v_buf v) as [b|] eqn:EB; [exact GEN|].
    destruct (v_off v =? 0) eqn:EO; [|exact GEN].
    apply Z.eqb_eq in EO. exists mem. split; [reflexivity|]. split; [lia|]. intros s Hs.
    unfold elem, buffer. rewrite EB, AD, EO, Z.add_0_l. rewrite <- getv_nth by lia.
    destruct (getv_some mem s ltac:(lia)) as [x ->]. reflexivity.
  - unfold moveaxis. cbn [copy_with v_shape]. rewrite HS. cbn [length Nat.eqb andb].
    assert (KS : k_strides v = [1]) by (unfold k_strides; rewrite HS; cbn [length Nat.leb c_strides prodz fold_right]; now rewrite orb_true_r).
    rewrite KS. destruct (extract_copy dflt mem v [1] ltac:(lia) ltac:(lia)) as [out [E [L K]]].
    exists out. split; [exact E|]. split; [lia|]. intros s Hs. rewrite K by lia. rewrite HS. cbn [decode].
    rewrite Z.div_1_r, Z.mod_small by lia. reflexivity.
Qed.

Lemma nth_error_same : forall (A : Type) (l1 l2 : list A), (forall n, nth_error l1 n = nth_error l2 n) -> l1 = l2.
Proof.
  induction l1 as [|x l1 IH]; intros [|y l2] H; [reflexivity|discriminate (H O)|discriminate (H O)|].
  pose proof (H O) as E. cbn in E. injection E as ->. f_equal. apply IH. intro n. exact (H (S n)).
Qed.

(** An array of the wrong size is refused. *)
Theorem C79_wrong_size : forall (A : Type) (dflt : A) (mem : list A) (v : view A),
  prodz (v_shape v) <> Z.of_nat (length mem) -> take_result dflt mem v = Throw.
Proof.
  intros A dflt mem v H. unfold take_result, sanitize. unfold size.
  destruct (Z.eqb_spec (prodz (v_shape v)) (Z.of_nat (length mem))); [contradiction|reflexivity].
Qed.

(** The argument itself: every change made in place is kept. *)
Theorem C79_in_place : forall (A : Type) (dflt : A) (mem : list A) (ns n1 n2 : Z),
  n1 * n2 * ns = Z.of_nat (length mem) -> take_result dflt mem (argument n1 n2 ns) = Ok mem.
Proof.
  intros A dflt mem ns n1 n2 HL. unfold take_result, sanitize.
  assert (SZ : @size A (argument n1 n2 ns) = n1 * n2 * ns) by (unfold size; cbn [argument v_shape prodz fold_right]; ring).
  rewrite SZ, HL, Z.eqb_refl. cbn [negb obind]. unfold cast, argument, moveaxis. cbn [v_same v_own v_shape]. rewrite andb_false_r.
  cbn [andb]. unfold extract. unfold argument in SZ. rewrite SZ, HL, Z.eqb_refl. reflexivity.
Qed.

(** What the function sees: element [s, i, j] of its argument is the matrix element (i, j) of site [s],
    which C++ stores at [(i * n2 + j) * ns + s]; single orbitals: the number of site [s]. *)
Theorem C79_argument : forall (A : Type) (dflt : A) (mem : list A) (ns n1 n2 : Z),
  n1 * n2 * ns = Z.of_nat (length mem) ->
  v_shape (argument (A := A) n1 n2 ns) = [ns; n1; n2] /\ valid mem (argument n1 n2 ns) /\
  forall s i j, 0 <= s < ns -> 0 <= i < n1 -> 0 <= j < n2 ->
    nth_error mem (Z.to_nat ((i * n2 + j) * ns + s)) = Some (elem dflt mem (argument n1 n2 ns) [s; i; j]).
Proof.
  intros A dflt mem ns n1 n2 HL.
  assert (IN : forall s i j, 0 <= s < ns -> 0 <= i < n1 -> 0 <= j < n2 ->
    address (argument (A := A) n1 n2 ns) [s; i; j] = (i * n2 + j) * ns + s /\ 0 <= (i * n2 + j) * ns + s < Z.of_nat (length mem)).
  { intros s' i' j' Hs' Hi' Hj'. split; [unfold address, argument; cbn [v_off v_strides dotz]; ring|]. rewrite <- HL.
    assert (0 <= i' * n2) by (apply Z.mul_nonneg_nonneg; lia). assert ((i' + 1) * n2 <= n1 * n2) by (apply Z.mul_le_mono_nonneg_r; lia).
    assert (0 <= (i' * n2 + j') * ns) by (apply Z.mul_nonneg_nonneg; lia).
    assert ((i' * n2 + j' + 1) * ns <= n1 * n2 * ns) by (apply Z.mul_le_mono_nonneg_r; lia). lia. }
  split; [reflexivity|]. split.
  - split; [reflexivity|]. intros idx I. cbn [argument v_shape] in I.
    inversion I as [|? s ? r1 Is I1]; subst. inversion I1 as [|? i ? r2 Ii I2]; subst. inversion I2 as [|? j ? r3 Ij I3]; subst. inversion I3; subst.
    destruct (IN s i j) as [E B]; auto. rewrite E. exact B.
  - intros s i j Hs Hi Hj. destruct (IN s i j) as [E B]; auto. unfold elem, buffer, getv. rewrite E. cbn [argument v_buf].
    destruct (Z.ltb_spec ((i * n2 + j) * ns + s) 0); [lia|].
    destruct (nth_error mem (Z.to_nat ((i * n2 + j) * ns + s))) eqn:N; [reflexivity|]. apply nth_error_None in N. lia.
Qed.
Theorem C79_argument_1d : forall (A : Type) (dflt : A) (mem : list A), let v := argument1 (Z.of_nat (length mem)) in
  v_shape v = [Z.of_nat (length mem)] /\
  forall s, 0 <= s < Z.of_nat (length mem) -> nth_error mem (Z.to_nat s) = Some (elem dflt mem v [s]).
Proof.
  intros A dflt mem v. split; [reflexivity|]. intros s Hs. unfold elem, buffer, getv, address, v, argument1. cbn [v_buf v_off v_strides dotz].
  replace (0 + (s * 1 + 0)) with s by ring. destruct (Z.ltb_spec s 0); [lia|].
  destruct (nth_error mem (Z.to_nat s)) eqn:N; [reflexivity|]. apply nth_error_None in N. lia.
Qed.

(** ** What goes wrong outside *)

(** Any other view that begins with the first element of the argument, such as the transposed
    matrices [energy.transpose(0, 2, 1)]: the result is ignored. *)
Theorem C79_view_ignored : forall (A : Type) (dflt : A) (mem : list A) (v : view A),
  v_buf v = None -> v_off v = 0 -> v_same v = true -> v_own v = false ->
  prodz (v_shape v) = Z.of_nat (length mem) -> take_result dflt mem v = Ok mem.
Proof.
  intros A dflt mem v HB HO HS HW SZ. unfold take_result, sanitize, size. rewrite SZ, Z.eqb_refl. cbn [negb obind].
  unfold cast, moveaxis. rewrite HS, HW, andb_false_r. cbn [andb]. unfold extract, size.
  rewrite SZ, Z.eqb_refl, HB, HO. reflexivity.
Qed.

(** A C ordered array that does not own its memory, as [reshape] makes them: element [r[s, i, j]]
    goes to the address [(s * n1 + i) * n2 + j] instead of [(i * n2 + j) * ns + s]. *)
Theorem C79_reshaped_scrambled : forall (A : Type) (dflt : A) (mem b : list A) (ns n1 n2 : Z),
  0 < ns -> 0 < n1 -> 0 < n2 -> n1 * n2 * ns = Z.of_nat (length mem) -> length b = length mem ->
  let v := View (Some b) 0 [ns; n1; n2] [n1 * n2; n2; 1] false true in
  take_result dflt mem v = Ok b /\
  forall s i j, 0 <= s < ns -> 0 <= i < n1 -> 0 <= j < n2 ->
    nth_error b (Z.to_nat ((s * n1 + i) * n2 + j)) = Some (elem dflt mem v [s; i; j]).
Proof.
  intros A dflt mem b ns n1 n2 H0 H1 H2 HL HB v.
  assert (SZ : size v = n1 * n2 * ns) by (unfold size, v; cbn [v_shape prodz fold_right]; ring).
  split.
  - unfold take_result, sanitize. rewrite SZ, HL, Z.eqb_refl. cbn [negb obind]. unfold cast, moveaxis. cbn [v v_same v_own].
    rewrite andb_false_r. cbn [andb]. unfold extract. fold v. rewrite SZ, HL, Z.eqb_refl. cbn [negb v v_buf v_off].
    destruct (read_raw_ok (length mem) b 0 ltac:(lia) ltac:(lia)) as [l [E [L K]]]. rewrite E. f_equal.
    apply nth_error_same. intro n. destruct (Nat.lt_ge_cases n (length mem)) as [Hn|Hn].
    + rewrite K by exact Hn. rewrite getv_nth by lia. f_equal. lia.
    + rewrite (proj2 (nth_error_None l n)), (proj2 (nth_error_None b n)); auto; lia.
  - intros s i j Hs Hi Hj. pose proof (digits ns n1 n2 s i j Hj Hs Hi) as D. cbv zeta in D. destruct D as [_ [_ [_ D]]].
    unfold elem, address, buffer, v. cbn [v_buf v_off v_strides dotz].
    replace (0 + (s * (n1 * n2) + (i * n2 + (j * 1 + 0)))) with ((s * n1 + i) * n2 + j) by ring.
    rewrite <- getv_nth by lia. destruct (getv_some b ((s * n1 + i) * n2 + j)) as [x ->]; [nia|reflexivity].
Qed.

Definition eight : list Z := [1; 2; 3; 4; 5; 6; 7; 8].

(** Two sites, two orbitals: [np.arange(1, 9).reshape(2, 2, 2)] *)
Definition reshaped : view Z := View (Some eight) 0 [2; 2; 2] [4; 2; 1] false true.
(** [energy.transpose(0, 2, 1)] *)
Definition transposed : view Z := View None 0 [2; 2; 2] [1; 2; 4] false true.
(** [energy[::-1]] *)
Definition reversed : view Z := View None 7 [8] [-1] false true.

Ltac inside_cases := repeat match goal with H : inside _ _ |- _ => unfold inside in H | H : Forall2 _ _ _ |- _ => inversion H; clear H; subst end.

Theorem C79_refuted : ~ C79_claim.
Proof.
  intro C. destruct (C Z 0 (repeat 0 8) reshaped 2 2 2) as [out [E [_ S]]]; try reflexivity.
  - split; [reflexivity|]. intros idx H. cbn [v_shape reshaped] in H. inside_cases. unfold address. cbn. lia.
  - assert (out = eight) by (vm_compute in E; unfold eight; congruence). subst out.
    specialize (S 1 0 0 ltac:(lia) ltac:(lia) ltac:(lia)). vm_compute in S. discriminate S.
Qed.

Theorem C79_refuted_transposed : ~ C79_claim.
Proof.
  intro C. destruct (C Z 0 eight transposed 2 2 2) as [out [E [_ S]]]; try reflexivity.
  - split; [reflexivity|]. intros idx H. cbn [v_shape transposed] in H. inside_cases. unfold address. cbn. lia.
  - assert (out = eight) by (vm_compute in E; unfold eight; congruence). subst out.
    specialize (S 0 0 1 ltac:(lia) ltac:(lia) ltac:(lia)). vm_compute in S. discriminate S.
Qed.

Theorem C79_refuted_1d : ~ C79_claim_1d.
Proof.
  intro C. destruct (C Z 0 eight reversed 8) as [out [E _]]; try reflexivity.
  - split; [reflexivity|]. intros idx H. cbn [v_shape reversed] in H. inside_cases. unfold address. cbn [reversed v_off v_strides dotz]. change (Z.of_nat (length (buffer eight reversed))) with 8. lia.
  - vm_compute in E. discriminate E.
Qed.

(** ** Examples *)

(** [np.array([[[1, 2], [3, 4]], [[5, 6], [7, 8]]])]: C++ sees 1, 5, 2, 6, ... *)
Example ex_new : take_result 0 (repeat 0 8) (View (Some eight) 0 [2; 2; 2] [4; 2; 1] true true) = Ok [1; 5; 2; 6; 3; 7; 4; 8].
Proof. reflexivity. Qed.
(** the same of another precision and reshaped: the cast makes an array that owns its memory *)
Example ex_cast : take_result 0 (repeat 0 8) (View (Some eight) 0 [2; 2; 2] [4; 2; 1] false false) = Ok [1; 5; 2; 6; 3; 7; 4; 8].
Proof. reflexivity. Qed.
(** an expression in the argument keeps its order *)
Example ex_expression : take_result 0 (repeat 0 12) (View (Some (eight ++ [9; 10; 11; 12])) 0 [3; 2; 2] [1; 6; 3] true true) = Ok (eight ++ [9; 10; 11; 12]).
Proof. reflexivity. Qed.
(** ... and also when its precision is changed *)
Example ex_expression_cast : take_result 0 (repeat 0 12) (View (Some (eight ++ [9; 10; 11; 12])) 0 [3; 2; 2] [1; 6; 3] true false) = Ok (eight ++ [9; 10; 11; 12]).
Proof. reflexivity. Qed.
Example ex_reshaped : take_result 0 (repeat 0 8) reshaped = Ok eight.
Proof. reflexivity. Qed.
Example ex_reversed : take_result 0 eight reversed = UB.
Proof. reflexivity. Qed.
