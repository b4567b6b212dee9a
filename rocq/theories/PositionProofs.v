(* generate_positions produces the geometric position of every site at its flat index. *)
From Verif Require Import Base Rle Blocks Foundation IndexProofs.
Local Open Scope Z_scope.

Lemma ofold_append : forall {A B} (step : list B -> A -> outcome (list B)) (f : A -> list B) l acc,
  (forall acc x, In x l -> step acc x = Ok (acc ++ f x)) ->
  ofold step l acc = Ok (acc ++ flat_map f l).
Proof.
  intros A B step f l. induction l as [|x l IH]; intros acc H; cbn [ofold flat_map].
  - rewrite app_nil_r. reflexivity.
  - rewrite H by (left; reflexivity). cbn [obind]. rewrite IH by (intros; apply H; right; auto).
    rewrite app_assoc. reflexivity.
Qed.

Lemma zrange_in : forall n x, In x (zrange n) <-> 0 <= x < n.
Proof.
  intros n x. unfold zrange. rewrite in_map_iff. split.
  - intros (k & <- & Hk). apply in_seq in Hk. lia.
  - intros H. exists (Z.to_nat x). split; [lia|]. apply in_seq. lia.
Qed.

Lemma zrange_length : forall n, length (zrange n) = Z.to_nat n.
Proof. intros. unfold zrange. rewrite map_length, seq_length. reflexivity. Qed.

Lemma zrange_app : forall a b, 0 <= a -> 0 <= b -> zrange (a + b) = zrange a ++ map (Z.add a) (zrange b).
Proof.
  intros a b Ha Hb. unfold zrange. rewrite Z2Nat.inj_add by lia. rewrite seq_app, map_app. f_equal.
  rewrite map_map. cbn [Nat.add].
  replace (seq (Z.to_nat a) (Z.to_nat b)) with (map (Nat.add (Z.to_nat a)) (seq 0 (Z.to_nat b))).
  - rewrite !map_map. apply map_ext. intros k. lia.
  - generalize (Z.to_nat a) as s. generalize (Z.to_nat b) as n. intros n s.
    clear. assert (G : forall n t, map (Nat.add s) (seq t n) = seq (s + t) n).
    { induction n0; intros t; cbn [seq map]; [reflexivity|]. f_equal. rewrite IHn0. f_equal. lia. }
    rewrite G. f_equal. lia.
Qed.

Lemma flat_map_zrange : forall {B} (f : Z -> Z -> B) n m, 0 < n -> 0 <= m ->
  flat_map (fun b => map (fun a => f b a) (zrange n)) (zrange m)
  = map (fun k => f (k / n) (k mod n)) (zrange (m * n)).
Proof.
  intros B f n m Hn Hm. rewrite <- (Z2Nat.id m Hm). generalize (Z.to_nat m) as k. clear m Hm.
  induction k as [|k IH].
  - reflexivity.
  - rewrite Nat2Z.inj_succ. unfold Z.succ. rewrite zrange_app by lia.
    rewrite flat_map_app, IH. rewrite Z.mul_add_distr_r, Z.mul_1_l, zrange_app by nia.
    rewrite map_app. f_equal. change (zrange 1) with [0]. cbn [map flat_map]. rewrite app_nil_r.
    rewrite map_map. apply map_ext_in. intros a Ha. apply zrange_in in Ha. rewrite Z.add_0_r.
    f_equal.
    + apply (Z.div_unique _ _ _ a); lia.
    + apply (Z.mod_unique _ _ (Z.of_nat k)); lia.
Qed.

Lemma flat_map_map : forall {A B C} (g : A -> B) (f : B -> list C) l, flat_map f (map g l) = flat_map (fun x => f (g x)) l.
Proof. induction l; cbn; congruence. Qed.

Section Pos.
  Variable P : Type.
  Variable padd : P -> P -> P.
  Variable pscale : Z -> P -> P.
  Hypothesis add_scale_0 : forall p v, padd p (pscale 0 v) = p.

  (** Position of cell [i], unit-cell position [up]; missing vectors contribute nothing. *)
  Definition geo (origin : P) (vecs : list P) (up : P) (i : idx3) : P :=
    let at_dim d n p := match nth_error vecs d with Some v => padd p (pscale n v) | None => p end in
    at_dim 0%nat (ix i) (at_dim 1%nat (iy i) (at_dim 2%nat (iz i) (padd origin up))).

  (** Directions without a primitive vector have extent one. *)
  Definition dims_ok (size : idx3) (vecs : list P) : Prop :=
    (0 < length vecs)%nat /\ ((length vecs < 2)%nat -> iy size = 1) /\ ((length vecs < 3)%nat -> iz size = 1).

  Lemma step_pos_ok : forall vecs d n p sz, 0 <= n < sz -> ((length vecs < S d)%nat -> sz = 1) ->
    step_pos P padd pscale vecs d n p =
    Ok (match nth_error vecs d with Some v => padd p (pscale n v) | None => p end).
  Proof.
    intros vecs d n p sz Hn Hd. unfold step_pos, aget.
    destruct (Z.eqb_spec n 0) as [->|Hne].
    - destruct (nth_error vecs d); [rewrite add_scale_0|]; reflexivity.
    - destruct (nth_error vecs d) eqn:E; [reflexivity|]. apply nth_error_None in E.
      specialize (Hd ltac:(lia)). lia.
  Qed.

  Lemma generate_positions_ok : forall origin size vecs uc, pos_size size -> dims_ok size vecs ->
    exists pos, generate_positions P padd pscale origin size vecs uc = Ok pos /\
      length pos = Z.to_nat (f_size size (length uc)) /\
      forall i sub u, cell_in size i -> nth_error uc sub = Some u ->
        nth_error pos (Z.to_nat (flat_of size i (Z.of_nat sub))) = Some (geo origin vecs (u_pos u) i).
  Proof.
    intros origin size vecs uc Hs (D0 & D1 & D2). pose proof Hs as (Sx & Sy & Sz).
    set (g := fun (u : usite P) (c b a : Z) => geo origin vecs (u_pos u) (I3 a b c)).
    exists (flat_map (fun u => flat_map (fun c => flat_map (fun b => map (fun a => g u c b a)
              (zrange (ix size))) (zrange (iy size))) (zrange (iz size))) uc).
    assert (BLK : forall u, flat_map (fun c => flat_map (fun b => map (fun a => g u c b a)
              (zrange (ix size))) (zrange (iy size))) (zrange (iz size))
       = map (fun k => g u (k / ix size / iy size) ((k / ix size) mod iy size) (k mod ix size)) (zrange (prod3 size))).
    { intros u.
      rewrite (flat_map_ext _ (fun c => map (fun k => g u c (k / ix size) (k mod ix size)) (zrange (iy size * ix size)))).
      2:{ intros c. apply (flat_map_zrange (fun b a => g u c b a)); lia. }
      rewrite (flat_map_zrange (fun c k => g u c (k / ix size) (k mod ix size))) by nia.
      unfold prod3. replace (iz size * (iy size * ix size)) with (ix size * iy size * iz size) by lia.
      apply map_ext_in. intros k Hk. apply zrange_in in Hk.
      rewrite (Z.mul_comm (iy size) (ix size)).
      rewrite <- Z.div_div by lia.
      rewrite Z.rem_mul_r by lia.
      f_equal.
      - rewrite (Z.mul_comm (ix size) ((k / ix size) mod iy size)), Z.div_add by lia. rewrite Z.mod_div by lia. lia.
      - rewrite (Z.mul_comm (ix size) ((k / ix size) mod iy size)), Z.mod_add by lia. rewrite Z.mod_mod by lia. reflexivity. }
    split; [|split].
    - unfold generate_positions. match goal with |- _ = Ok ?x => change x with ([] ++ x) end.
      apply ofold_append. intros acc u _.
      apply ofold_append. intros acc1 c Hc. apply zrange_in in Hc.
      rewrite (step_pos_ok _ _ _ _ (iz size)) by (auto; intros; apply D2; lia). cbn [obind].
      apply ofold_append. intros acc2 b Hb. apply zrange_in in Hb.
      rewrite (step_pos_ok _ _ _ _ (iy size)) by (auto; intros; apply D1; lia). cbn [obind].
      rewrite (ofold_append _ (fun a => [g u c b a])).
      + reflexivity.
      + intros acc3 a Ha. unfold g, geo. cbn [ix iy iz]. unfold aget.
        destruct (nth_error vecs 0) eqn:E; [reflexivity|]. apply nth_error_None in E. lia.
    - rewrite (flat_map_ext _ _ BLK). unfold f_size. pose proof (prod3_pos size Hs).
      rewrite Z2Nat.inj_mul by lia. rewrite Nat2Z.id. clear -H. induction uc as [|u uc IH]; cbn [flat_map length]; [lia|].
      rewrite app_length, map_length, zrange_length, IH. lia.
    - intros i sub u Hi Hu. rewrite (flat_map_ext _ _ BLK).
      assert (NE : forall (l : list (usite P)) sub u k, nth_error l sub = Some u -> 0 <= k < prod3 size ->
         nth_error (flat_map (fun u => map (fun k => g u (k / ix size / iy size) ((k / ix size) mod iy size) (k mod ix size)) (zrange (prod3 size))) l)
            (sub * Z.to_nat (prod3 size) + Z.to_nat k) = Some (g u (k / ix size / iy size) ((k / ix size) mod iy size) (k mod ix size))).
      { clear -Hs. induction l as [|u0 l IH]; intros sub u k E K; [destruct sub; discriminate|].
        cbn [flat_map]. destruct sub as [|sub]; cbn [nth_error] in E.
        - injection E as ->. cbn [Nat.mul Nat.add]. rewrite nth_error_app1 by (rewrite map_length, zrange_length; lia).
          unfold zrange. rewrite map_map. rewrite nth_error_map.
          rewrite (nth_error_nth' _ 0%nat) by (rewrite seq_length; lia). rewrite seq_nth by lia.
          cbn [option_map Nat.add]. rewrite Z2Nat.id by lia. reflexivity.
        - rewrite nth_error_app2 by (rewrite map_length, zrange_length; lia).
          rewrite map_length, zrange_length.
          replace (S sub * Z.to_nat (prod3 size) + Z.to_nat k - Z.to_nat (prod3 size))%nat
             with (sub * Z.to_nat (prod3 size) + Z.to_nat k)%nat by lia. apply IH; auto. }
      set (k := (iz i * iy size + iy i) * ix size + ix i).
      destruct Hi as (Hx & Hy & Hz). pose proof (prod3_pos size Hs) as PP.
      assert (K1 : k / ix size = iz i * iy size + iy i) by (symmetry; apply (Z.div_unique _ _ _ (ix i)); unfold k; lia).
      assert (K2 : k mod ix size = ix i) by (symmetry; apply (Z.mod_unique _ _ (iz i * iy size + iy i)); unfold k; lia).
      assert (K3 : (iz i * iy size + iy i) / iy size = iz i) by (symmetry; apply (Z.div_unique _ _ _ (iy i)); lia).
      assert (K4 : (iz i * iy size + iy i) mod iy size = iy i) by (symmetry; apply (Z.mod_unique _ _ (iz i)); lia).
      assert (KB : 0 <= k < prod3 size).
      { unfold k, prod3. assert (0 <= iz i * iy size + iy i < iz size * iy size) by nia. nia. }
      specialize (NE uc sub u k Hu KB). rewrite K1, K2, K3, K4 in NE.
      replace (Z.to_nat (flat_of size i (Z.of_nat sub))) with (sub * Z.to_nat (prod3 size) + Z.to_nat k)%nat.
      + rewrite NE. unfold g. destruct i; reflexivity.
      + apply Nat2Z.inj. rewrite Nat2Z.inj_add, Nat2Z.inj_mul, !Z2Nat.id; try lia.
        * unfold flat_of, k, prod3. lia.
        * unfold flat_of. nia.
  Qed.
End Pos.
