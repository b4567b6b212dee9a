(* C66: bilayer graphene. *)
From Coq Require Import Reals Lra Lia ZArith.
From Verif Require Import Base Scalar Foundation Lattice LatticeSpec FoundationSpec Hamiltonian BulkSpec Materials MaterialsSpec MaterialsProofs GrapheneProofs PropsGraphene BilayerProofs.
Local Open Scope R_scope.

(** ** Specification *)
(** Bernal stacking: A1, B1, A2, B2 are 0..3, B1 lies on A2.  gamma0 joins neighbours in a layer,
    gamma1 the two atoms on top of each other, gamma3 the other two sublattices, and gamma4 an atom
    of each of these pairs; the latter two over one bond length in the plane. *)
Definition slonczewski {K : scalar} (g0 g1 g3 g4 : K) (a b : nat) (flat : R) : K :=
  match a, b with
  | 0, 1 | 1, 0 | 2, 3 | 3, 2 => if within (15/100) flat then g0 else k0
  | 1, 2 | 2, 1 => if within (1/100) flat then g1 else k0
  | 0, 3 | 3, 0 => if within (15/100) flat then g3 else k0
  | 0, 2 | 2, 0 | 1, 3 | 3, 1 => if within (15/100) flat then g4 else k0
  | _, _ => k0
  end%nat.
Definition C66_claim : Prop := forall (K : scalar) offset_ok order gamma3 gamma4 (on1 on2 on3 on4 g0 g1 g3 g4 : K),
  real_energy on1 -> real_energy on2 -> real_energy on3 -> real_energy on4 -> real_energy g0 -> real_energy g1 -> real_energy g3 -> real_energy g4 ->
  let m := bilayer gamma3 gamma4 on1 on2 on3 on4 g0 g1 g3 g4 in
  exists l, run offset_ok order (mt_calls m) = Some l /\
    forall x y, site2 4 x -> site2 4 y ->
      hopping l x y = slonczewski g0 g1 (if gamma3 then g3 else k0) (if gamma4 then g4 else k0) (snd x) (snd y) (flat2 (atom m l x) (atom m l y)).

(** Half turn about an axis in the middle of a bond between the layers. *)
Definition swap_layers (x : idx3 * nat) : idx3 * nat := (opposite (fst x), (3 - snd x)%nat).

(** ** Proof *)
Lemma within_AB : forall p q, within (15/100) (d_AB p q) = in2 nn1 p q.
Proof.
  intros p q. destruct (shells_AB p q) as [(E & D)|[(E & D)|(E & D)]].
  - rewrite E. apply within_yes. lra.
  - replace (in2 nn1 p q) with false. { apply within_no. lra. }
    symmetry. apply Bool.not_true_is_false. intros C. unfold in2, nn1, nn3 in *. cbn [existsb fst snd] in *. rewrite !Bool.orb_true_iff, !Bool.andb_true_iff, !Z.eqb_eq in *. lia.
  - unfold in2 in E. rewrite existsb_app in E. apply Bool.orb_false_iff in E. destruct E as [E _]. fold (in2 nn1 p q) in E. rewrite E. apply within_no. lra.
Qed.
Lemma within_same : forall p q, within (1/100) (d_same p q) = in2 [(0, 0)]%Z p q.
Proof.
  intros p q. destruct (shells_same p q) as [(-> & -> & E)|[(E & D)|(E & D)]].
  - rewrite E. apply within_yes. lra.
  - replace (in2 [(0, 0)]%Z p q) with false. { apply within_no. lra. }
    symmetry. apply Bool.not_true_is_false. intros C. unfold in2, nn2 in *. cbn [existsb fst snd] in *. rewrite !Bool.orb_true_iff, !Bool.andb_true_iff, !Z.eqb_eq in *. lia.
  - replace (in2 [(0, 0)]%Z p q) with false. { apply within_no. lra. }
    unfold in2 in *. cbn [existsb] in *. apply Bool.orb_false_iff in E. destruct E as [-> _]. reflexivity.
Qed.
Lemma within_AB2 : forall p q, within (15/100) (d_AB2 p q) = in2 nn3b p q.
Proof. intros p q. destruct (shells_AB2 p q) as [(E & D)|(E & D)]; rewrite E; [apply within_yes|apply within_no]; lra. Qed.

Lemma triple : forall a b c a' b' c' : R, a = a' -> b = b' -> c = c' -> (a, b, c) = (a', b', c').
Proof. intros. congruence. Qed.

(** Distance in the plane as a function of the difference of the cells. *)
Definition bi_flat (a b : nat) (p q : Z) : R :=
  match a, b with
  | 0, 1 | 2, 3 | 0, 2 | 1, 3 => d_AB p q
  | 1, 0 | 3, 2 | 2, 0 | 3, 1 => d_AB (- p) (- q)
  | 0, 3 => d_AB2 p q
  | 3, 0 => d_AB2 (- p) (- q)
  | 2, 1 => d_same (- p) (- q)
  | _, _ => d_same p q
  end%nat.

Section Bilayer.
  Variables (K : scalar) (offset_ok : vec3 -> bool) (order : list (Lattice.family K) -> list (Lattice.family K)) (gamma3 gamma4 : bool) (on1 on2 on3 on4 g0 g1 g3 g4 : K).
  Hypotheses (R1 : real_energy on1) (R2 : real_energy on2) (R3 : real_energy on3) (R4 : real_energy on4) (E0 : real_energy g0) (E1 : real_energy g1) (E3 : real_energy g3) (E4 : real_energy g4).
  Let m := bilayer gamma3 gamma4 on1 on2 on3 on4 g0 g1 g3 g4.
  Lemma bi_dist : forall l x y, run offset_ok order (mt_calls m) = Some l -> site2 4 x -> site2 4 y ->
    flat2 (atom m l x) (atom m l y) = let p := (ix (fst y) - ix (fst x))%Z in let q := (iy (fst y) - iy (fst x))%Z in bi_flat (snd x) (snd y) (- q) (p + q).
  Proof.
    intros l [c a] [d b] Er [Zx Hx] [Zy Hy]. unfold m in Er. rewrite bi_run in Er by assumption.
    match type of Er with Some ?a = Some _ => assert (El : a = l) by congruence end. subst l. clear Er. cbn [fst snd] in *. unfold atom, corner. cbn [fst snd]. rewrite Zx, Zy.
    destruct a as [|[|[|[|a]]]]; [| | | |lia]; destruct b as [|[|[|[|b]]]]; try lia; cbn; unfold flat2, d_same, d_AB, d_AB2, vadd, vscale, v0, vx, vy, vz; cbn [fst snd];
    rewrite ?opp_IZR, ?plus_IZR, ?opp_IZR, ?minus_IZR; field.
  Qed.
  Lemma bi_hop : forall l x y, run offset_ok order (mt_calls m) = Some l -> site2 4 x -> site2 4 y -> (gamma4 = false \/ ~ (snd x = 1 /\ snd y = 3 \/ snd x = 3 /\ snd y = 1)%nat) ->
    hopping l x y = slonczewski g0 g1 (if gamma3 then g3 else k0) (if gamma4 then g4 else k0) (snd x) (snd y) (flat2 (atom m l x) (atom m l y)).
  Proof.
    intros l x y Er Sx Sy H4. rewrite (bi_dist l x y Er Sx Sy). unfold m in Er. rewrite bi_run in Er by assumption.
    match type of Er with Some ?a = Some _ => assert (El : a = l) by congruence end. subst l. clear Er. unfold hopping. cbn [l_fams]. rewrite bi_bulk by assumption.
    cbv zeta. set (p := (- (iy (fst y) - iy (fst x)))%Z). set (q := (ix (fst y) - ix (fst x) + (iy (fst y) - iy (fst x)))%Z).
    destruct Sx as [_ Sx], Sy as [_ Sy]. destruct (snd x) as [|[|[|[|a]]]]; [| | | |lia]; destruct (snd y) as [|[|[|[|b]]]]; try lia; cbn [slonczewski bi_flat bi_el bi_up Nat.ltb Nat.leb];
    unfold bi_el; cbn [bi_up Nat.ltb Nat.leb]; rewrite ?within_AB, ?within_same, ?within_AB2; try reflexivity; try (destruct gamma3; cbn [andb]; [reflexivity|]); try (destruct gamma4; cbn [andb]; [try reflexivity|]);
    try (solve [destruct H4 as [H4|H4]; [discriminate H4|exfalso; apply H4; auto]]); repeat match goal with |- context [in2 ?a ?b ?c] => destruct (in2 a b c) end; try reflexivity.
  Qed.
End Bilayer.

(** Without gamma4, and with it except between B1 and B2. *)
Theorem C66_partial : forall (K : scalar) offset_ok order gamma3 gamma4 (on1 on2 on3 on4 g0 g1 g3 g4 : K),
  real_energy on1 -> real_energy on2 -> real_energy on3 -> real_energy on4 -> real_energy g0 -> real_energy g1 -> real_energy g3 -> real_energy g4 ->
  let m := bilayer gamma3 gamma4 on1 on2 on3 on4 g0 g1 g3 g4 in
  exists l, run offset_ok order (mt_calls m) = Some l /\
    forall x y, site2 4 x -> site2 4 y -> (gamma4 = false \/ ~ (snd x = 1 /\ snd y = 3 \/ snd x = 3 /\ snd y = 1)%nat) ->
      hopping l x y = slonczewski g0 g1 (if gamma3 then g3 else k0) (if gamma4 then g4 else k0) (snd x) (snd y) (flat2 (atom m l x) (atom m l y)).
Proof.
  intros K oo order gamma3 gamma4 on1 on2 on3 on4 g0 g1 g3 g4 R1 R2 R3 R4 E0 E1 E3 E4 m. eexists. split; [apply bi_run; assumption|].
  intros x y Sx Sy H4. apply (bi_hop K oo order gamma3 gamma4 on1 on2 on3 on4); try assumption. apply bi_run; assumption.
Qed.
Print Assumptions C66_partial.

(** With gamma4 the bonds between B1 and B2 are missing. *)
Theorem C66_refuted : ~ C66_claim.
Proof.
  intros C. specialize (C GI (fun _ => true) (fun x => x) false true (0, 0)%Z (0, 0)%Z (0, 0)%Z (0, 0)%Z (3, 0)%Z (2, 0)%Z (1, 0)%Z (5, 0)%Z
    eq_refl eq_refl eq_refl eq_refl eq_refl eq_refl eq_refl eq_refl).
  cbv zeta in C. destruct C as (l & Er & H). specialize (H (zero3, 1%nat) (zero3, 3%nat)). rewrite (bi_dist GI (fun _ => true) (fun x => x) false true) in H;
  [|reflexivity..|exact Er|split; cbn; lia|split; cbn; lia]. cbv zeta in H. cbn [fst snd slonczewski bi_flat] in H. rewrite within_AB in H.
  rewrite bi_run in Er by reflexivity. match type of Er with Some ?a = Some _ => assert (El : a = l) by congruence end. subst l.
  assert (X : hopping (Lat [] (bi_fams GI false true (3, 0)%Z (2, 0)%Z (1, 0)%Z (5, 0)%Z) None 2) (zero3, 1%nat) (zero3, 3%nat) = (0, 0)%Z) by (vm_compute; reflexivity).
  unfold hopping in H, X. cbn [l_fams] in H, X. rewrite X in H. vm_compute in H. assert (F : (0, 0)%Z = (5, 0)%Z) by (apply H; split; cbn; lia). discriminate F.
Qed.
Print Assumptions C66_refuted.

(** Without gamma4 the half turn that exchanges the layers is a symmetry of the crystal. *)
Theorem C66_turn : forall (K : scalar) offset_ok order gamma3 (on1 on2 on3 on4 g0 g1 g3 g4 : K) l,
  real_energy on1 -> real_energy on2 -> real_energy on3 -> real_energy on4 -> real_energy g0 -> real_energy g1 -> real_energy g3 -> real_energy g4 ->
  let m := bilayer gamma3 false on1 on2 on3 on4 g0 g1 g3 g4 in
  run offset_ok order (mt_calls m) = Some l -> forall x y, site2 4 x -> site2 4 y ->
    vadd (atom m l x) (atom m l (swap_layers x)) = (0, g_acc, - g_c0) /\
    hopping l (swap_layers x) (swap_layers y) = hopping l x y.
Proof.
  intros K oo order gamma3 on1 on2 on3 on4 g0 g1 g3 g4 l R1 R2 R3 R4 E0 E1 E3 E4 m Er x y Sx Sy. 
  assert (SW : forall z, site2 4 z -> site2 4 (swap_layers z)).
  { intros [[i j k] a] [Z H]. cbn in Z, H. subst k. split; [reflexivity|unfold swap_layers; cbn [snd]; lia]. }
  split.
  - unfold m in Er; rewrite bi_run in Er by assumption. match type of Er with Some ?a = Some _ => assert (El : a = l) by congruence end. subst l. clear Er.
    destruct x as [[i j k] a], Sx as [Z Hx]. cbn in Z. subst k. cbn [fst snd] in Hx. unfold atom, swap_layers, corner, opposite. cbn [fst snd ix iy iz].
    destruct a as [|[|[|[|a]]]]; [| | | |lia]; cbn [Nat.sub find sb_uid Nat.eqb l_subs sb_pos mt_vectors bilayer m nth]; unfold vadd, vscale, v0, vx, vy, vz; cbn [fst snd];
    rewrite ?opp_IZR; apply triple; field.
  - rewrite (bi_hop K oo order gamma3 false on1 on2 on3 on4 g0 g1 g3 g4 R1 R2 R3 R4 E0 E1 E3 E4 l x y Er Sx Sy) by auto.
    rewrite (bi_hop K oo order gamma3 false on1 on2 on3 on4 g0 g1 g3 g4 R1 R2 R3 R4 E0 E1 E3 E4 l _ _ Er (SW x Sx) (SW y Sy)) by auto.
    rewrite (bi_dist K oo order gamma3 false on1 on2 on3 on4 g0 g1 g3 g4 R1 R2 R3 R4 l x y Er Sx Sy).
    rewrite (bi_dist K oo order gamma3 false on1 on2 on3 on4 g0 g1 g3 g4 R1 R2 R3 R4 l _ _ Er (SW x Sx) (SW y Sy)).
    unfold swap_layers, opposite. cbn [fst snd ix iy iz]. cbv zeta.
    replace (- (- iy (fst y) - - iy (fst x)))%Z with (iy (fst y) - iy (fst x))%Z by lia.
    replace (- ix (fst y) - - ix (fst x) + (- iy (fst y) - - iy (fst x)))%Z with (- (ix (fst y) - ix (fst x) + (iy (fst y) - iy (fst x))))%Z by lia.
    replace (iy (fst y) - iy (fst x))%Z with (- - (iy (fst y) - iy (fst x)))%Z at 1 by lia.
    set (p := (- (iy (fst y) - iy (fst x)))%Z). set (q := (ix (fst y) - ix (fst x) + (iy (fst y) - iy (fst x)))%Z).
    destruct Sx as [_ Sx], Sy as [_ Sy]. destruct (snd x) as [|[|[|[|a]]]]; [| | | |lia]; destruct (snd y) as [|[|[|[|b]]]]; try lia; cbn [slonczewski bi_flat Nat.sub];
    rewrite ?Z.opp_involutive; reflexivity.
Qed.
Print Assumptions C66_turn.

(** With gamma4 it is not. *)
Theorem C66_turn_refuted : exists (on g0 g1 g3 g4 : GI) l x y, run (fun _ => true) (fun x => x) (mt_calls (bilayer false true on on on on g0 g1 g3 g4)) = Some l /\
  site2 4 x /\ site2 4 y /\ hopping l (swap_layers x) (swap_layers y) <> hopping l x y.
Proof.
  exists (0, 0)%Z, (3, 0)%Z, (2, 0)%Z, (1, 0)%Z, (5, 0)%Z. eexists. exists (zero3, 0%nat), (zero3, 2%nat). split; [apply bi_run; reflexivity|].
  split; [split; cbn; lia|]. split; [split; cbn; lia|]. unfold hopping. cbn [l_fams]. vm_compute. discriminate.
Qed.
Print Assumptions C66_turn_refuted.

(** Atoms on top of each other; a bond of gamma3. *)
Example C66_example : exists l, run (fun _ => true) (fun x => x) (mt_calls (bilayer (K := GI) true false (0, 0)%Z (1, 0)%Z (1, 0)%Z (0, 0)%Z (-28, 0)%Z (-4, 0)%Z (-3, 0)%Z (0, 0)%Z)) = Some l /\
  hopping l (zero3, 1%nat) (zero3, 2%nat) = (-4, 0)%Z /\ hopping l (I3 0 1 0, 0%nat) (zero3, 3%nat) = (-3, 0)%Z /\ hopping l (zero3, 3%nat) (I3 0 (-1) 0, 2%nat) = (0, 0)%Z.
Proof. eexists. split; [apply bi_run; reflexivity|]. unfold hopping. cbn [l_fams]. repeat split; vm_compute; reflexivity. Qed.
