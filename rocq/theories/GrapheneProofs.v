(* Graphene lattices: which calls are accepted and what the neighbour shells are. *)
From Coq Require Import Reals Lra Lia ZArith.
From Verif Require Import Base Scalar Foundation Lattice FoundationSpec Hamiltonian BulkSpec Materials MaterialsSpec MaterialsProofs.

Section Mono.
  Variable K : scalar.
  Variable oo : vec3 -> bool.
  Variable order : list (Lattice.family K) -> list (Lattice.family K).

  Definition mono_fams (n : Z) (t tnn tnnn : K) : list (Lattice.family K) :=
    let z := (0%Z) in
    [Fam (Nm 0) (single t) 0 [Term (I3 0 0 0) 0 1; Term (I3 1 (-1) 0) 0 1; Term (I3 0 (-1) 0) 0 1];
     Fam (Nm 1) (single tnn) 1 (if (2 <=? n)%Z then [Term (I3 0 (-1) 0) 0 0; Term (I3 0 (-1) 0) 1 1; Term (I3 1 (-1) 0) 0 0; Term (I3 1 (-1) 0) 1 1; Term (I3 1 0 0) 0 0; Term (I3 1 0 0) 1 1] else []);
     Fam (Nm 2) (single tnnn) 2 (if (3 <=? n)%Z then [Term (I3 1 (-2) 0) 0 1; Term (I3 1 0 0) 0 1; Term (I3 (-1) 0 0) 0 1] else [])].

  Lemma add_two : forall pA pB (eA eB : K), real_energy eA -> real_energy eB ->
    run oo order (subs [(Nm 0, pA, eA); (Nm 1, pB, eB)]) =
      Some (Lat [Sub (Nm 0) pA (hermitian_view (single eA)) 0 0; Sub (Nm 1) pB (hermitian_view (single eB)) 1 1] [] None 1).
  Proof.
    intros pA pB eA eB HA HB. unfold run, subs. cbn [map fold_left fst snd].
    rewrite (run_sub _ _ oo order (Nm 0) pA eA new_lattice 0 HA) by reflexivity. erewrite run_sub; [|exact HB|reflexivity]. reflexivity.
  Qed.

  Lemma mono_run : forall n onA onB t tnn tnnn m, real_energy onA -> real_energy onB -> real_energy tnn ->
    monolayer n onA onB t tnn tnnn = Some m ->
    (n <= 3)%Z /\ mt_vectors m = [(g_a, 0, 0); (g_a / 2, g_a / 2 * sqrt 3, 0)]%R /\
    run oo order (mt_calls m) = Some (Lat
      [Sub (Nm 0) (0, - g_acc / 2, 0)%R (hermitian_view (single (kadd onA (if (n <? 2)%Z then k0 else three tnn)))) 0 0;
       Sub (Nm 1) (0, g_acc / 2, 0)%R (hermitian_view (single (kadd onB (if (n <? 2)%Z then k0 else three tnn)))) 1 1]
      (mono_fams n t tnn tnnn) None 2).
  Proof.
    intros n onA onB t tnn tnnn m HA HB HT E. unfold monolayer in E. destruct (Z.leb_spec 4 n) as [|N]; [discriminate|]. match type of E with Some ?x = Some m => assert (M : m = x) by congruence; clear E; subst m end.
    split; [lia|]. split; [reflexivity|]. cbn [mt_calls]. rewrite run_app.
    assert (R0 : real_energy (if (n <? 2)%Z then k0 else three tnn)).
    { destruct (n <? 2)%Z; [apply kconj_0|]. unfold three, real_energy. rewrite !kconj_add, HT. reflexivity. }
    rewrite add_two by (unfold real_energy; rewrite kconj_add, R0; f_equal; assumption).
    generalize (0, - g_acc / 2, 0)%R as pA. generalize (0, g_acc / 2, 0)%R as pB. intros pB pA.
    unfold mono_fams.
    destruct (Z.leb_spec 2 n) as [N2|N2]; destruct (Z.leb_spec 3 n) as [N3|N3]; try lia; reflexivity.
  Qed.
End Mono.

Local Open Scope R_scope.
Lemma sqrt3_sq : sqrt 3 * sqrt 3 = 3. Proof. apply sqrt_sqrt. lra. Qed.
Lemma sqrt3_lo : 17320508 / 10000000 < sqrt 3.
Proof. rewrite <- (sqrt_square (17320508 / 10000000)) by lra. apply sqrt_lt_1; lra. Qed.
Lemma sqrt3_hi : sqrt 3 < 17320509 / 10000000.
Proof. rewrite <- (sqrt_square (17320509 / 10000000)) by lra. apply sqrt_lt_1; lra. Qed.

(** Squared distances as functions of the difference of the cells. *)
Definition d_same (p q : Z) : R :=
  let X := g_a * (IZR p + IZR q / 2) in let Y := g_a / 2 * sqrt 3 * IZR q in X * X + Y * Y.
Definition d_AB (p q : Z) : R :=
  let X := g_a * (IZR p + IZR q / 2) in let Y := g_a / 2 * sqrt 3 * IZR q + g_acc in X * X + Y * Y.

Lemma IZR_ge : forall p q : Z, (p <= q)%Z -> IZR p <= IZR q. Proof. intros; apply IZR_le; assumption. Qed.

(** A square below a bound confines its root. *)
Lemma sq_bound : forall x b, 0 <= b -> x * x <= b * b -> - b <= x <= b.
Proof. intros x b Hb H. split; apply Rnot_lt_le; intros C; nra. Qed.
Lemma far_root : forall x b, 0 <= b -> (x < - b \/ b < x) -> b * b < x * x.
Proof. intros x b Hb [H|H]; nra. Qed.

Lemma int_range : forall z a b, IZR a < IZR z -> IZR z < IZR b -> (a < z < b)%Z.
Proof. intros z a b H1 H2. split; apply lt_IZR; assumption. Qed.

(** Anything within 0.37 nm lies in the nearby cells. *)
Lemma near_same : forall p q, d_same p q <= 37/100 * (37/100) -> (-2 <= q <= 2)%Z /\ (-3 < p < 3)%Z.
Proof.
  intros p q H. unfold d_same in H. pose proof sqrt3_lo as L. pose proof sqrt3_hi as U.
  set (X := g_a * (IZR p + IZR q / 2)) in *. set (Y := g_a / 2 * sqrt 3 * IZR q) in *.
  assert (HX : X * X <= 37/100 * (37/100)) by nra. assert (HY : Y * Y <= 37/100 * (37/100)) by nra.
  apply sq_bound in HX; [|lra]. apply sq_bound in HY; [|lra].
  assert (Q : -2 < IZR q < 2) by (unfold Y, g_a in HY; split; nra).
  assert (P : -3 < IZR p < 3) by (unfold X, g_a in HX; split; lra).
  destruct (int_range q (-2) 2) as [? ?]; [lra|lra|]. destruct (int_range p (-3) 3) as [? ?]; [lra|lra|]. lia.
Qed.
Lemma near_AB : forall p q, d_AB p q <= 37/100 * (37/100) -> (-2 <= q <= 1)%Z /\ (-3 < p < 3)%Z.
Proof.
  intros p q H. unfold d_AB in H. pose proof sqrt3_lo as L. pose proof sqrt3_hi as U.
  set (X := g_a * (IZR p + IZR q / 2)) in *. set (Y := g_a / 2 * sqrt 3 * IZR q + g_acc) in *.
  assert (HX : X * X <= 37/100 * (37/100)) by nra. assert (HY : Y * Y <= 37/100 * (37/100)) by nra.
  apply sq_bound in HX; [|lra]. apply sq_bound in HY; [|lra].
  assert (Q : -3 < IZR q < 2) by (unfold Y, g_a, g_acc in HY; split; nra).
  destruct (int_range q (-3) 2) as [? ?]; [lra|lra|].
  assert (Q' : -2 <= IZR q <= 1) by (split; apply IZR_le; lia).
  assert (P : -3 < IZR p < 3) by (unfold X, g_a in HX; split; lra).
  destruct (int_range p (-3) 3) as [? ?]; [lra|lra|]. lia.
Qed.

Definition in2 (l : list (Z * Z)) (p q : Z) : bool := existsb (fun e => (p =? fst e)%Z && (q =? snd e)%Z) l.
Definition nn1 := [(0, 0); (1, -1); (0, -1)]%Z.
Definition nn2 := [(0, -1); (1, -1); (1, 0); (0, 1); (-1, 1); (-1, 0)]%Z.
Definition nn3 := [(1, -2); (1, 0); (-1, 0)]%Z.

Ltac cases_int z lo hi :=
  lazymatch eval compute in (hi - lo)%Z with
  | Z0 => assert (z = lo) by lia; subst z
  | _ => destruct (Z.eq_dec z lo); [subst z| let l' := eval compute in (lo + 1)%Z in cases_int z l' hi]
  end.

Lemma shells_AB : forall p q,
  (in2 nn1 p q = true /\ 1419/10000 * (1419/10000) < d_AB p q < 1421/10000 * (1421/10000)) \/
  (in2 nn3 p q = true /\ 2839/10000 * (2839/10000) < d_AB p q < 2841/10000 * (2841/10000)) \/
  (in2 (nn1 ++ nn3) p q = false /\ 37/100 * (37/100) < d_AB p q).
Proof.
  intros p q. pose proof sqrt3_sq as S. pose proof sqrt3_lo as L. pose proof sqrt3_hi as U.
  destruct (Rle_dec (d_AB p q) (37/100 * (37/100))) as [H|H].
  - destruct (near_AB p q H) as [Q P]. unfold d_AB, g_a, g_acc in *.
    cases_int q (-2)%Z 1%Z; cases_int p (-2)%Z 2%Z;
      first [ left; split; [reflexivity|]; split; nra
            | right; left; split; [reflexivity|]; split; nra
            | exfalso; nra ].
  - right; right. split; [|lra]. apply Bool.not_true_is_false. intros C. apply H. unfold in2, nn1, nn3 in C. cbn [app existsb fst snd] in C.
    rewrite !Bool.orb_true_iff, !Bool.andb_true_iff, !Z.eqb_eq in C. unfold d_AB, g_a, g_acc.
    destruct C as [[-> ->]|[[-> ->]|[[-> ->]|[[-> ->]|[[-> ->]|[[-> ->]|C]]]]]]; try discriminate; nra.
Qed.
Lemma shells_same : forall p q,
  (p = 0%Z /\ q = 0%Z /\ d_same p q = 0) \/
  (in2 nn2 p q = true /\ 2459/10000 * (2459/10000) < d_same p q < 2460/10000 * (2460/10000)) \/
  (in2 ((0, 0)%Z :: nn2) p q = false /\ 37/100 * (37/100) < d_same p q).
Proof.
  intros p q. pose proof sqrt3_sq as S. pose proof sqrt3_lo as L. pose proof sqrt3_hi as U.
  destruct (Rle_dec (d_same p q) (37/100 * (37/100))) as [H|H].
  - destruct (near_same p q H) as [Q P]. unfold d_same, g_a, g_acc in *.
    cases_int q (-2)%Z 2%Z; cases_int p (-2)%Z 2%Z;
      first [ left; split; [reflexivity|]; split; [reflexivity|]; nra
            | right; left; split; [reflexivity|]; split; nra
            | exfalso; nra ].
  - right; right. split; [|lra]. apply Bool.not_true_is_false. intros C. apply H. unfold in2, nn2 in C. cbn [app existsb fst snd] in C.
    rewrite !Bool.orb_true_iff, !Bool.andb_true_iff, !Z.eqb_eq in C. unfold d_same, g_a, g_acc.
    destruct C as [[-> ->]|[[-> ->]|[[-> ->]|[[-> ->]|[[-> ->]|[[-> ->]|[[-> ->]|C]]]]]]]; try discriminate; nra.
Qed.

Section Elements.
  Variable K : scalar.
  Add Ring Kring : (k_ring K).
  Local Open Scope k_scope.

  Ltac eqb_cases p l :=
    lazymatch l with
    | nil => idtac
    | cons ?z ?l' => destruct (Z.eqb_spec p z); [subst p|]; [|eqb_cases p l']
    end.
  Lemma sum_mono_AB : forall n (t tnn tnnn : K) p q,
    sum_goes (mono_fams K n t tnn tnnn) p q 0 0 1 0 0 =
      (if in2 nn1 p q then t else k0) + (if (3 <=? n)%Z && in2 nn3 p q then tnnn else k0).
  Proof.
    intros n t tnn tnnn p q. unfold sum_goes, mono_fams, in2, nn1, nn3, goes. destruct (2 <=? n)%Z, (3 <=? n)%Z;
    cbn; destruct (Z.eqb_spec p 0), (Z.eqb_spec p 1), (Z.eqb_spec p (-1)), (Z.eqb_spec q 0), (Z.eqb_spec q (-1)), (Z.eqb_spec q (-2)); subst; try lia; cbn; ring.
  Qed.
  Lemma sum_mono_BA : forall n (t tnn tnnn : K) p q, sum_goes (mono_fams K n t tnn tnnn) p q 0 1 0 0 0 = k0.
  Proof.
    intros n t tnn tnnn p q. unfold sum_goes, mono_fams, goes. destruct (2 <=? n)%Z, (3 <=? n)%Z; cbn; ring.
  Qed.
  Lemma sum_mono_same : forall n (t tnn tnnn : K) p q a, (a < 2)%nat ->
    sum_goes (mono_fams K n t tnn tnnn) p q 0 a a 0 0 = (if (2 <=? n)%Z && in2 [(0, -1); (1, -1); (1, 0)]%Z p q then tnn else k0).
  Proof.
    intros n t tnn tnnn p q a Ha. unfold sum_goes, mono_fams, in2, goes.
    destruct a as [|[|a]]; [| |lia]; destruct (2 <=? n)%Z, (3 <=? n)%Z;
    cbn; destruct (Z.eqb_spec p 0), (Z.eqb_spec p 1), (Z.eqb_spec q 0), (Z.eqb_spec q (-1)); subst; try lia; cbn; ring.
  Qed.
  Lemma in2_opp : forall l p q, in2 l (- p) (- q) = in2 (map (fun e => (- fst e, - snd e)%Z) l) p q.
  Proof.
    intros l p q. unfold in2. induction l as [|e l IH]; [reflexivity|]. cbn [map existsb fst snd]. rewrite IH. f_equal. f_equal; apply Bool.eq_true_iff_eq; rewrite !Z.eqb_eq; lia.
  Qed.
  Lemma if_conj : forall (b : bool) (e : K), real_energy e -> kconj (if b then e else k0) = if b then e else k0.
  Proof. intros [] e H; [exact H|apply kconj_0]. Qed.

  (** Element between sublattices [a] and [b] for a difference of the cells of (p, q). *)
  Definition mono_el (n : Z) (t tnn tnnn : K) (a b : nat) (p q : Z) : K :=
    if (a =? b)%nat then (if (2 <=? n)%Z && in2 nn2 p q then tnn else k0)
    else let (p, q) := if (a =? 0)%nat then (p, q) else (- p, - q)%Z in
         if in2 nn1 p q then t else if (3 <=? n)%Z && in2 nn3 p q then tnnn else k0.
  Lemma mono_bulk : forall n (t tnn tnnn : K) x y, real_energy t -> real_energy tnn -> real_energy tnnn -> site2 2 x -> site2 2 y ->
    bulk complex_type (mono_fams K n t tnn tnnn) x 0 y 0 =
      mono_el n t tnn tnnn (snd x) (snd y) (ix (fst y) - ix (fst x)) (iy (fst y) - iy (fst x)).
  Proof.
    intros n t tnn tnnn [c a] [d b] Rt Rtn Rtnn [Zx Hx] [Zy Hy]. rewrite bulk_goes. cbn [fst snd] in *. rewrite Zx, Zy. cbn [Z.sub Z.opp Z.add].
    set (p := (ix d - ix c)%Z). set (q := (iy d - iy c)%Z). unfold mono_el.
    assert (D13 : forall p q, in2 nn1 p q = true -> in2 nn3 p q = false).
    { intros p' q' H. unfold in2, nn1, nn3 in *. cbn [existsb fst snd] in *. rewrite !Bool.orb_true_iff, !Bool.andb_true_iff, !Z.eqb_eq in H.
      destruct H as [[-> ->]|[[-> ->]|[[-> ->]|H]]]; [reflexivity..|discriminate]. }
    destruct a as [|[|a]]; [| |lia]; destruct b as [|[|b]]; try lia; cbn [Nat.eqb].
    - rewrite !sum_mono_same by lia. rewrite if_conj by exact Rtn. rewrite in2_opp. cbn [map fst snd Z.opp].
      destruct (2 <=? n)%Z; cbn [andb]; [|ring]. unfold in2, nn2. cbn [existsb fst snd].
      destruct (Z.eqb_spec p 0), (Z.eqb_spec p 1), (Z.eqb_spec p (-1)), (Z.eqb_spec q 0), (Z.eqb_spec q (-1)), (Z.eqb_spec q 1); try lia; cbn; ring.
    - rewrite sum_mono_AB, sum_mono_BA, kconj_0. specialize (D13 p q). destruct (in2 nn1 p q); [rewrite D13 by reflexivity; rewrite Bool.andb_false_r; ring|].
      destruct ((3 <=? n)%Z && in2 nn3 p q); ring.
    - rewrite sum_mono_AB, sum_mono_BA, kconj_add, !if_conj by assumption. specialize (D13 (- p) (- q))%Z. destruct (in2 nn1 (- p) (- q)); [rewrite D13 by reflexivity; rewrite Bool.andb_false_r; ring|].
      destruct ((3 <=? n)%Z && in2 nn3 (- p) (- q)); ring.
    - rewrite !sum_mono_same by lia. rewrite if_conj by exact Rtn. rewrite in2_opp. cbn [map fst snd Z.opp].
      destruct (2 <=? n)%Z; cbn [andb]; [|ring]. unfold in2, nn2. cbn [existsb fst snd].
      destruct (Z.eqb_spec p 0), (Z.eqb_spec p 1), (Z.eqb_spec p (-1)), (Z.eqb_spec q 0), (Z.eqb_spec q (-1)), (Z.eqb_spec q 1); try lia; cbn; ring.
  Qed.
End Elements.
