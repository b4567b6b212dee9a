(* C65: the graphene lattices with other unit cells describe the same crystal. *)
From Coq Require Import Reals Lra Lia ZArith Permutation.
From Verif Require Import Base Scalar Foundation Lattice FoundationSpec Hamiltonian BulkSpec Cplx Materials MaterialsSpec MaterialsProofs GrapheneProofs SuperProofs.
Local Open Scope R_scope.

(** ** Specification *)
(** A one-to-one map of the sites of [l] (with [n] sublattices per cell) to those of [l'] (with [n'])
    that keeps every onsite energy and every hopping. *)
Record same_crystal {K : scalar} (l l' : lattice K vec3) (n n' : nat) (f g : idx3 * nat -> idx3 * nat) : Prop := {
  sc_there : forall x, site2 n x -> site2 n' (f x) /\ g (f x) = x;
  sc_back : forall y, site2 n' y -> site2 n (g y) /\ f (g y) = y;
  sc_onsite : forall x, site2 n x -> exists e e', onsite l x = Some e /\ onsite l' (f x) = Some e' /\ m_rows e = 1%nat /\ m_rows e' = 1%nat /\ m_at e 0 0 = m_at e' 0 0;
  sc_hopping : forall x y, site2 n x -> site2 n y -> hopping l' (f x) (f y) = hopping l x y }.

(** ** Proof *)
Section Elements.
  Variable K : scalar.
  Add Ring Kse : (k_ring K).
  Local Open Scope k_scope.
  Ltac alleq := repeat match goal with |- context [(?a =? ?b)%Z] => destruct (Z.eqb_spec a b) end.

  Lemma alt_el : forall (t : K) x y, real_energy t -> site2 2 x -> site2 2 y ->
    bulk complex_type (alt_fams K t) x 0 y 0 =
      let p := (ix (fst y) - ix (fst x))%Z in let q := (iy (fst y) - iy (fst x))%Z in
      mono_el K 1 t k0 k0 (snd x) (snd y) q (p - q).
  Proof.
    intros t [c a] [d b] Rt [Zx Hx] [Zy Hy]. rewrite bulk_goes. cbn [fst snd] in *. rewrite Zx, Zy. cbn [Z.sub Z.opp Z.add].
    set (p := (ix d - ix c)%Z). set (q := (iy d - iy c)%Z). cbv zeta. unfold mono_el, sum_goes, alt_fams, goes, in2, nn1, nn3, nn2.
    destruct a as [|[|a]]; [| |lia]; destruct b as [|[|b]]; try lia; cbn -[Z.eqb Z.sub Z.opp]; rewrite ?kadd_0_r, ?kadd_0_l, ?kconj_0; try ring;
    rewrite ?Bool.andb_true_r; cbn [Z.opp Z.eqb]; rewrite ?Bool.andb_true_r.
    - alleq; try lia; cbn; ring.
    - rewrite kconj_0 || idtac. alleq; try lia; cbn; rewrite ?kadd_0_r, ?kadd_0_l, ?kconj_add, ?kconj_0, ?Rt; ring.
  Qed.

  (** Sublattice and half cell of a site of the rectangular cell. *)
  Definition kind (u : nat) : nat := (u mod 2)%nat.
  Definition half (u : nat) : Z := Z.of_nat (u / 2).
  Lemma four_el : forall (t : K) x y, real_energy t -> site2 4 x -> site2 4 y ->
    bulk complex_type (four_fams K t) x 0 y 0 =
      let p := (ix (fst y) - ix (fst x))%Z in let q := (iy (fst y) - iy (fst x))%Z in
      mono_el K 1 t k0 k0 (kind (snd x)) (kind (snd y)) (p - q) (2 * q + half (snd y) - half (snd x)).
  Proof.
    intros t [c a] [d b] Rt [Zx Hx] [Zy Hy]. rewrite bulk_goes. cbn [fst snd] in *. rewrite Zx, Zy. cbn [Z.sub Z.opp Z.add].
    set (p := (ix d - ix c)%Z). set (q := (iy d - iy c)%Z). cbv zeta. unfold mono_el, sum_goes, four_fams, goes, in2, nn1, nn3, nn2.
    destruct a as [|[|[|[|a]]]]; [| | | |lia]; destruct b as [|[|[|[|b]]]]; try lia; cbn -[Z.eqb Z.sub Z.opp Z.add Z.mul];
    rewrite ?kadd_0_r, ?kadd_0_l, ?kconj_0; try ring;
    rewrite ?Bool.andb_true_r; cbn [Z.opp Z.eqb]; rewrite ?Bool.andb_true_r;
    alleq; try lia; cbn; rewrite ?kadd_0_r, ?kadd_0_l, ?kconj_add, ?kconj_0, ?Rt; ring.
  Qed.
End Elements.

(** The maps of the sites. *)
Definition to_alt (x : idx3 * nat) : idx3 * nat := (I3 (ix (fst x) + iy (fst x)) (ix (fst x)) (iz (fst x)), snd x).
Definition from_alt (x : idx3 * nat) : idx3 * nat := (I3 (iy (fst x)) (ix (fst x) - iy (fst x)) (iz (fst x)), snd x).
Definition to_four (x : idx3 * nat) : idx3 * nat :=
  (I3 (ix (fst x) + iy (fst x) / 2) (iy (fst x) / 2) (iz (fst x)), (snd x + 2 * Z.to_nat (iy (fst x) mod 2))%nat).
Definition from_four (x : idx3 * nat) : idx3 * nat :=
  (I3 (ix (fst x) - iy (fst x)) (2 * iy (fst x) + half (snd x)) (iz (fst x)), kind (snd x)).

Lemma mono_1 : forall (K : scalar) (onA onB t tnn tnnn : K), exists m, monolayer 1 onA onB t tnn tnnn = Some m /\ 
  mt_vectors m = [(g_a, 0, 0); (g_a / 2, g_a / 2 * sqrt 3, 0)].
Proof. intros. eexists. split; reflexivity. Qed.

Lemma mono_el_1 : forall (K : scalar) (t tnn tnnn : K) a b p q, mono_el K 1 t tnn tnnn a b p q = mono_el K 1 t k0 k0 a b p q.
Proof. reflexivity. Qed.

Lemma triple_eq : forall a b c a' b' c' : R, a = a' -> b = b' -> c = c' -> (a, b, c) = (a', b', c').
Proof. intros. congruence. Qed.

Ltac same_el := match goal with |- mono_el _ _ _ _ _ _ _ ?a ?b = mono_el _ _ _ _ _ _ _ ?c ?d => replace a with c by lia; replace b with d by lia; reflexivity end.

(** [monolayer_alt]: the same crystal, moved up by half a bond. *)
Theorem C65_alt : forall (K : scalar) offset_ok order (onA onB t tnn tnnn : K) m l,
  real_energy onA -> real_energy onB -> real_energy t -> real_energy tnn -> real_energy tnnn -> (forall fs, Permutation (order fs) fs) ->
  monolayer 1 onA onB t tnn tnnn = Some m -> run offset_ok order (mt_calls m) = Some l ->
  exists l', run offset_ok order (mt_calls (monolayer_alt onA onB t)) = Some l' /\
    same_crystal l l' 2 2 to_alt from_alt /\
    forall x, site2 2 x -> atom (monolayer_alt onA onB t) l' (to_alt x) = vadd (atom m l x) (0, g_acc / 2, 0).
Proof.
  intros K oo order onA onB t tnn tnnn m l RA RB Rt Rtn Rtnn HO Em Er.
  destruct (mono_run K oo order 1 onA onB t tnn tnnn m RA RB Rtn Em) as (_ & EV & ER). rewrite ER in Er.
  match type of Er with Some ?a = Some _ => assert (El : l = a) by congruence end. subst l. clear Er.
  eexists. split; [apply alt_run; assumption|]. split.
  - constructor.
    + intros [[p q r] a] [Z H]. cbn in Z. subst r. split; [split; [reflexivity|exact H]|]. unfold from_alt, to_alt. cbn [fst snd ix iy iz]. repeat f_equal; lia.
    + intros [[p q r] a] [Z H]. cbn in Z. subst r. split; [split; [reflexivity|exact H]|]. unfold from_alt, to_alt. cbn [fst snd ix iy iz]. repeat f_equal; lia.
    + intros [c a] [Z H]. cbn [fst snd] in *. unfold onsite, to_alt. cbn [fst snd l_subs]. destruct a as [|[|a]]; [| |lia]; cbn [find sb_uid Nat.eqb option_map sb_energy];
      eexists _, _; (split; [reflexivity|]); (split; [reflexivity|]); (split; [reflexivity|]); (split; [reflexivity|]); cbn; apply kadd_0_r.
    + intros [[p q r] a] [[p' q' r'] b] [Z H] [Z' H']. cbn in Z, Z', H, H'. subst r r'. unfold hopping. cbn [l_fams].
      rewrite alt_el by (try assumption; split; cbn; auto). rewrite mono_bulk by (try assumption; split; cbn; auto).
      rewrite mono_el_1. unfold to_alt. cbn [fst snd ix iy iz]. same_el.
  - intros [[p q r] a] [Z H]. cbn in Z, H. subst r. unfold atom, corner, to_alt. cbn [fst snd l_subs]. rewrite EV.
    destruct a as [|[|a]]; [| |lia]; cbn [find sb_uid Nat.eqb sb_pos mt_vectors monolayer_alt nth ix iy iz]; unfold vadd, vscale, v0, vx, vy, vz; cbn [fst snd];
    rewrite plus_IZR; apply triple_eq; field.
Qed.
Print Assumptions C65_alt.

(** [monolayer_4atom]: the same crystal with two cells in one.  The rectangular cell is built from
    the bond length and the oblique one from the cell length, and the two constants agree to about
    2e-6 nm per cell only. *)
Theorem C65_4atom : forall (K : scalar) offset_ok order (onA onB t tnn tnnn : K) m l,
  real_energy onA -> real_energy onB -> real_energy t -> real_energy tnn -> real_energy tnnn -> (forall fs, Permutation (order fs) fs) ->
  monolayer 1 onA onB t tnn tnnn = Some m -> run offset_ok order (mt_calls m) = Some l ->
  exists l', run offset_ok order (mt_calls (monolayer_4atom onA onB t)) = Some l' /\
    same_crystal l l' 2 4 to_four from_four /\
    forall x, site2 2 x -> let P := atom m l x in let P' := atom (monolayer_4atom onA onB t) l' (to_four x) in
      vx P' = vx P /\ Rabs (vy P' - vy P) <= Rabs (IZR (iy (fst x))) * (2 / 1000000) /\ vz P' = vz P.
Proof.
  intros K oo order onA onB t tnn tnnn m l RA RB Rt Rtn Rtnn HO Em Er.
  destruct (mono_run K oo order 1 onA onB t tnn tnnn m RA RB Rtn Em) as (_ & EV & ER). rewrite ER in Er.
  match type of Er with Some ?a = Some _ => assert (El : l = a) by congruence end. subst l. clear Er.
  assert (Q2 : forall q, exists j r, (q = 2 * j + r)%Z /\ (r = 0 \/ r = 1)%Z /\ (q / 2 = j)%Z /\ (q mod 2 = r)%Z).
  { intros q. exists (q / 2)%Z, (q mod 2)%Z. pose proof (Z.div_mod q 2 ltac:(lia)). pose proof (Z.mod_pos_bound q 2 ltac:(lia)). repeat split; lia. }
  eexists. split; [apply four_run; assumption|]. split.
  - constructor.
    + intros [[p q r] a] [Z H]. cbn in Z, H. subst r. destruct (Q2 q) as (j & r & E & Hr & D & M). unfold to_four, from_four, half, kind. cbn [fst snd ix iy iz]. rewrite D, M. subst q.
      destruct a as [|[|a]]; [| |lia]; destruct Hr as [-> | ->]; (split; [split; [reflexivity|cbn; lia]|]); cbn -[Z.mul Z.add Z.sub]; repeat f_equal; lia.
    + intros [[p q r] a] [Z H]. cbn in Z, H. subst r. unfold to_four, from_four, half, kind. cbn [fst snd ix iy iz]. 
      assert (A : ((2 * q + Z.of_nat (a / 2)) / 2 = q /\ (2 * q + Z.of_nat (a / 2)) mod 2 = Z.of_nat (a / 2))%Z).
      { destruct a as [|[|[|[|a]]]]; [| | | |lia]; cbn -[Z.mul Z.add Z.div Z.modulo];
        match goal with |- (?e / 2 = _ /\ _)%Z => destruct (Q2 e) as (j1 & r1 & E1 & Hr1 & D1 & M1) end; lia. }
      destruct A as [A1 A2]. rewrite A1, A2.
      split; [split; [reflexivity|destruct a as [|[|[|[|a]]]]; cbn; lia]|].
      destruct a as [|[|[|[|a]]]]; [| | | |lia]; cbn -[Z.mul Z.add Z.sub]; repeat f_equal; lia.
    + intros [[p q r] a] [Z H]. cbn in Z, H. subst r. destruct (Q2 q) as (j & r & E & Hr & D & M). unfold onsite, to_four. cbn [fst snd l_subs ix iy iz]. rewrite M.
      destruct a as [|[|a]]; [| |lia]; destruct Hr as [-> | ->]; cbn [find sb_uid Nat.eqb option_map sb_energy Z.to_nat Pos.to_nat Pos.iter_op Nat.add Nat.mul];
      eexists _, _; (split; [reflexivity|]); (split; [reflexivity|]); (split; [reflexivity|]); (split; [reflexivity|]); cbn; apply kadd_0_r.
    + intros [[p q r] a] [[p' q' r'] b] [Z H] [Z' H']. cbn in Z, Z', H, H'. subst r r'. unfold hopping. cbn [l_fams].
      rewrite mono_bulk by (try assumption; split; cbn; auto). rewrite mono_el_1. cbn [fst snd ix iy iz].
      destruct (Q2 q) as (j & r & E & Hr & D & M). destruct (Q2 q') as (j' & r' & E' & Hr' & D' & M').
      assert (S4 : forall p0 q0 u, (u < 2)%nat -> site2 4 (to_four (I3 p0 q0 0, u))).
      { intros p0 q0 u Hu. destruct (Q2 q0) as (j0 & r0 & E0 & Hr0 & D0 & M0). split; [reflexivity|]. unfold to_four. cbn [fst snd ix iy iz]. rewrite M0. destruct Hr0 as [-> | ->]; cbn; lia. }
      rewrite four_el by (try assumption; apply S4; assumption). unfold to_four. cbn [fst snd ix iy iz]. rewrite D, M, D', M'. unfold half, kind. cbv zeta.
      destruct a as [|[|a]]; [| |lia]; destruct b as [|[|b]]; try lia; destruct Hr as [-> | ->], Hr' as [-> | ->]; change (Z.to_nat 1) with 1%nat; change (Z.to_nat 0) with 0%nat; cbn -[Z.mul Z.add Z.sub mono_el]; same_el.
  - intros [[p q r] a] [Z H]. cbn in Z, H. subst r. destruct (Q2 q) as (j & r & E & Hr & D & M). unfold atom, corner, to_four. cbn [fst snd l_subs ix iy iz]. rewrite EV, D, M.
    pose proof sqrt3_lo as L. pose proof sqrt3_hi as U.
    assert (B : forall y : R, Rabs ((3 * g_acc - g_a * sqrt 3) / 2 * y) <= Rabs y * (2 / 1000000)).
    { intros y. rewrite Rabs_mult, Rmult_comm. apply Rmult_le_compat_l; [apply Rabs_pos|]. apply Rabs_le. unfold g_acc, g_a. lra. }
    destruct a as [|[|a]]; [| |lia]; destruct Hr as [-> | ->]; change (Z.to_nat 1) with 1%nat; change (Z.to_nat 0) with 0%nat; cbn [find sb_uid Nat.eqb sb_pos mt_vectors monolayer_4atom nth Z.to_nat Pos.to_nat Pos.iter_op Nat.add Nat.mul];
    unfold vadd, vscale, v0, vx, vy, vz; cbn [fst snd]; subst q; rewrite !plus_IZR, !mult_IZR; (split; [field|split; [|ring]]);
    (eapply Rle_trans; [|apply B]); right; f_equal; field.
Qed.
Print Assumptions C65_4atom.

(** The atom above the first B atom is in the second half of the cell. *)
Example C65_example : to_four (I3 0 1 0, 0%nat) = (I3 0 0 0, 2%nat) /\ to_four (I3 (-1) 1 0, 1%nat) = (I3 (-1) 0 0, 3%nat) /\
  from_four (I3 2 (-1) 0, 3%nat) = (I3 3 (-1) 0, 1%nat) /\ to_alt (I3 1 (-1) 0, 1%nat) = (I3 0 1 0, 1%nat).
Proof. repeat split. Qed.
