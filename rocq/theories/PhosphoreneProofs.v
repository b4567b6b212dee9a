(* Phosphorene: accepted calls, matrix elements and symmetries (C69). *)
From Coq Require Import Reals Lra Lia ZArith.
From Verif Require Import Base Scalar Foundation Lattice LatticeSpec FoundationSpec Hamiltonian BulkSpec Materials MaterialsSpec MaterialsProofs GrapheneProofs PhosphoreneSpec.
Local Open Scope R_scope.

Section Ph.
  Variable K : scalar.
  Add Ring Kph : (k_ring K).
  Variable oo : vec3 -> bool.
  Variable order : list (Lattice.family K) -> list (Lattice.family K).

  Definition ph_fams (n : Z) (t1 t2 t3 t4 t5 : K) : list (Lattice.family K) :=
    [Fam (Nm 1) (single t1) 0 [Term (I3 (-1) 0 0) 0 3; Term (I3 (-1) (-1) 0) 0 3; Term (I3 0 0 0) 1 2; Term (I3 0 (-1) 0) 1 2];
     Fam (Nm 2) (single t2) 1 [Term (I3 0 0 0) 0 1; Term (I3 0 0 0) 2 3];
     Fam (Nm 3) (single t3) 2 (if (3 <=? n)%Z then [Term (I3 0 0 0) 0 3; Term (I3 0 (-1) 0) 0 3; Term (I3 1 1 0) 2 1; Term (I3 1 0 0) 2 1] else []);
     Fam (Nm 4) (single t4) 3 (if (4 <=? n)%Z then [Term (I3 0 0 0) 0 2; Term (I3 0 (-1) 0) 0 2; Term (I3 (-1) 0 0) 0 2; Term (I3 (-1) (-1) 0) 0 2;
        Term (I3 0 0 0) 1 3; Term (I3 0 (-1) 0) 1 3; Term (I3 (-1) 0 0) 1 3; Term (I3 (-1) (-1) 0) 1 3] else []);
     Fam (Nm 5) (single t5) 4 (if (5 <=? n)%Z then [Term (I3 (-1) 0 0) 0 1; Term (I3 (-1) 0 0) 2 3] else [])].
  Definition ph_subs (z : K) : list (sublattice K vec3) :=
    [Sub (Nm 0) (- p_s / 2, - p_ay / 2, p_h) (hermitian_view (single z)) 0 0; Sub (Nm 1) (p_s / 2, - p_ay / 2, 0) (hermitian_view (single z)) 1 1;
     Sub (Nm 2) (- p_s / 2 + p_ax / 2, 0, 0) (hermitian_view (single z)) 2 2; Sub (Nm 3) (p_s / 2 + p_ax / 2, 0, p_h) (hermitian_view (single z)) 3 3].
  Lemma ph_run : forall n z t1 t2 t3 t4 t5 m, real_energy z -> phosphorene n z t1 t2 t3 t4 t5 = Some m ->
    (2 <= n <= 5)%Z /\ mt_vectors m = [(p_ax, 0, 0); (0, p_ay, 0)] /\ run oo order (mt_calls m) = Some (Lat (ph_subs z) (ph_fams n t1 t2 t3 t4 t5) None 2).
  Proof.
    intros n z t1 t2 t3 t4 t5 m Rz E. unfold phosphorene in E. destruct (Z.ltb_spec n 2) as [|N2]; [discriminate|]. destruct (Z.ltb_spec 5 n) as [|N5]; [discriminate|].
    match type of E with Some ?x = Some m => assert (M : m = x) by congruence; clear E; subst m end.
    split; [lia|]. split; [reflexivity|]. cbn [mt_calls]. rewrite run_app. unfold ph_subs.
    generalize (- p_s / 2, - p_ay / 2, p_h) as pA. generalize (p_s / 2, - p_ay / 2, 0) as pB. generalize (- p_s / 2 + p_ax / 2, 0, 0) as pC. generalize (p_s / 2 + p_ax / 2, 0, p_h) as pD. intros pD pC pB pA.
    unfold run, subs. cbn [map fold_left fst snd].
    rewrite (run_sub _ _ oo order (Nm 0) pA z new_lattice 0 Rz) by reflexivity.
    erewrite run_sub; [|exact Rz|reflexivity]. erewrite run_sub; [|exact Rz|reflexivity]. erewrite run_sub; [|exact Rz|reflexivity].
    unfold ph_fams. destruct (Z.leb_spec 3 n), (Z.leb_spec 4 n), (Z.leb_spec 5 n); try lia; reflexivity.
  Qed.

  (** The element as a function of the difference of the cells. *)
  Definition ph_up (n : Z) (t1 t2 t3 t4 t5 : K) (a b : nat) (p q : Z) : K :=
    match a, b with
    | 0, 1 | 2, 3 => if in2 [(0, 0)]%Z p q then t2 else if (5 <=? n)%Z && in2 [(-1, 0)]%Z p q then t5 else k0
    | 0, 3 => if in2 [(-1, 0); (-1, -1)]%Z p q then t1 else if (3 <=? n)%Z && in2 [(0, 0); (0, -1)]%Z p q then t3 else k0
    | 1, 2 => if in2 [(0, 0); (0, -1)]%Z p q then t1 else if (3 <=? n)%Z && in2 [(-1, -1); (-1, 0)]%Z p q then t3 else k0
    | 0, 2 | 1, 3 => if (4 <=? n)%Z && in2 [(0, 0); (0, -1); (-1, 0); (-1, -1)]%Z p q then t4 else k0
    | _, _ => k0
    end%nat.
  Definition ph_el n t1 t2 t3 t4 t5 (a b : nat) (p q : Z) : K :=
    if (a <? b)%nat then ph_up n t1 t2 t3 t4 t5 a b p q else ph_up n t1 t2 t3 t4 t5 b a (- p) (- q).
  Local Open Scope k_scope.
  Ltac alleq := repeat match goal with |- context [(?a =? ?b)%Z] => destruct (Z.eqb_spec a b) end.
  Lemma ph_bulk : forall n (t1 t2 t3 t4 t5 : K) x y, real_energy t1 -> real_energy t2 -> real_energy t3 -> real_energy t4 -> real_energy t5 -> site2 4 x -> site2 4 y ->
    bulk complex_type (ph_fams n t1 t2 t3 t4 t5) x 0 y 0 = ph_el n t1 t2 t3 t4 t5 (snd x) (snd y) (ix (fst y) - ix (fst x)) (iy (fst y) - iy (fst x)).
  Proof.
    intros n t1 t2 t3 t4 t5 [c a] [d b] R1 R2 R3 R4 R5 [Zx Hx] [Zy Hy]. rewrite bulk_goes. cbn [fst snd] in *. rewrite Zx, Zy. cbn [Z.sub Z.opp Z.add].
    set (p := (ix d - ix c)%Z). set (q := (iy d - iy c)%Z). unfold ph_el, ph_up, sum_goes, ph_fams, goes, in2.
    destruct a as [|[|[|[|a]]]]; [| | | |lia]; destruct b as [|[|[|[|b]]]]; try lia; destruct (3 <=? n)%Z, (4 <=? n)%Z, (5 <=? n)%Z; cbn -[Z.eqb Z.sub Z.opp Z.add Z.mul];
    rewrite ?kadd_0_r, ?kadd_0_l, ?kconj_0; try ring;
    rewrite ?Bool.andb_true_r; cbn [Z.opp Z.eqb]; rewrite ?Bool.andb_true_r;
    alleq; try lia; cbn; rewrite ?kadd_0_r, ?kadd_0_l, ?kconj_add, ?kconj_0, ?R1, ?R2, ?R3, ?R4, ?R5; ring.
  Qed.
End Ph.

Lemma triple : forall a b c a' b' c' : R, a = a' -> b = b' -> c = c' -> (a, b, c) = (a', b', c').
Proof. intros. congruence. Qed.
Ltac alleq := repeat match goal with |- context [(?a =? ?b)%Z] => destruct (Z.eqb_spec a b) end.
Ltac four a := destruct a as [|[|[|[|a]]]]; [| | | |exfalso; lia].
Section Sym.
  Variable K : scalar.
  Variables (n : Z) (z t1 t2 t3 t4 t5 : K) (m : material K) (oo : vec3 -> bool) (order : list (Lattice.family K) -> list (Lattice.family K)) (l : lattice K vec3).
  Hypothesis (Rz : real_energy z) (R1 : real_energy t1) (R2 : real_energy t2) (R3 : real_energy t3) (R4 : real_energy t4) (R5 : real_energy t5).
  Hypothesis (Em : phosphorene n z t1 t2 t3 t4 t5 = Some m) (Er : run oo order (mt_calls m) = Some l).
  Lemma ph_hop : forall x y, site2 4 x -> site2 4 y -> hopping l x y = ph_el K n t1 t2 t3 t4 t5 (snd x) (snd y) (ix (fst y) - ix (fst x)) (iy (fst y) - iy (fst x)).
  Proof.
    intros x y Hx Hy. destruct (ph_run K oo order n z t1 t2 t3 t4 t5 m Rz Em) as (_ & _ & E). unfold hopping.
    replace (l_fams l) with (ph_fams K n t1 t2 t3 t4 t5). { apply ph_bulk; assumption. }
    rewrite Er in E. match type of E with Some _ = Some ?a => assert (El : l = a) by congruence end. rewrite El. reflexivity.
  Qed.
  Definition ph_pos (a : nat) : vec3 :=
    match a with 0%nat => (- p_s / 2, - p_ay / 2, p_h) | 1%nat => (p_s / 2, - p_ay / 2, 0) | 2%nat => (- p_s / 2 + p_ax / 2, 0, 0) | _ => (p_s / 2 + p_ax / 2, 0, p_h) end.
  Lemma ph_atom : forall x, site2 4 x -> atom m l x = (p_ax * IZR (ix (fst x)) + vx (ph_pos (snd x)), p_ay * IZR (iy (fst x)) + vy (ph_pos (snd x)), vz (ph_pos (snd x))).
  Proof.
    intros [c a] [Z1 Z2]. cbn [fst snd] in *. destruct (ph_run K oo order n z t1 t2 t3 t4 t5 m Rz Em) as (_ & Ev & E).
    rewrite Er in E. match type of E with Some _ = Some ?a => assert (El : l = a) by congruence end. clear E.
    unfold atom, corner. rewrite Ev, El. cbn [l_subs fst snd ph_subs]. four a; cbn [find sb_uid Nat.eqb sb_pos nth ph_pos]; unfold vadd, vscale, v0, vx, vy, vz; unfold sb_pos; cbv beta iota; cbv beta iota delta [fst snd]; apply triple; field.
  Qed.
  Lemma ph_on : forall x, site2 4 x -> onsite l x = Some (hermitian_view (single z)).
  Proof.
    intros [c a] [Z1 Z2]. cbn [fst snd] in *. destruct (ph_run K oo order n z t1 t2 t3 t4 t5 m Rz Em) as (_ & Ev & E).
    rewrite Er in E. match type of E with Some _ = Some ?a => assert (El : l = a) by congruence end. clear E.
    unfold onsite. rewrite El. cbn [l_subs fst snd ph_subs]. four a; reflexivity.
  Qed.
  Ltac pos_tac := unfold my, cz, cy, my_pos, cz_pos, cy_pos, ph_pos, opposite, vx, vy, vz; cbn [fst snd ix iy iz Nat.ltb Nat.leb Nat.sub];
    rewrite ?minus_IZR, ?opp_IZR; cbv beta iota delta [fst snd]; apply triple; field.
  Lemma ph_my : symmetry m l my_pos my.
  Proof.
    intros [[i j k] a] [[i' j' k'] b] Hx Hy. destruct Hx as [Z1 Ha], Hy as [Z2 Hb]. cbn in Z1, Z2, Ha, Hb. subst k k'.
    assert (SW : forall c, site2 4 c -> site2 4 (my c)).
    { intros [[u v w] c] [E H]. cbn in E, H. subst w. split; [reflexivity|]. cbn [snd my]. four c; cbn; lia. }
    assert (Hx : site2 4 (I3 i j 0, a)) by (split; [reflexivity|exact Ha]). assert (Hy : site2 4 (I3 i' j' 0, b)) by (split; [reflexivity|exact Hb]).
    split; [apply SW; assumption|]. split; [|split; [intros o; rewrite !ph_on by auto; reflexivity|]].
    - rewrite !ph_atom by auto. four a; pos_tac.
    - rewrite !ph_hop by auto. unfold ph_el, ph_up, in2. clear - Ha Hb. four a; four b; unfold my; cbn -[Z.eqb Z.sub Z.opp Z.add Z.leb]; try reflexivity;
      destruct (3 <=? n)%Z, (4 <=? n)%Z, (5 <=? n)%Z; cbn [andb]; alleq; try lia; reflexivity.
  Qed.
  Lemma ph_cz : symmetry m l cz_pos cz.
  Proof.
    intros [[i j k] a] [[i' j' k'] b] Hx Hy. destruct Hx as [Z1 Ha], Hy as [Z2 Hb]. cbn in Z1, Z2, Ha, Hb. subst k k'.
    assert (SW : forall c, site2 4 c -> site2 4 (cz c)).
    { intros [[u v w] c] [E H]. cbn in E, H. subst w. split; [reflexivity|]. cbn [snd cz]. four c; cbn; lia. }
    assert (Hx : site2 4 (I3 i j 0, a)) by (split; [reflexivity|exact Ha]). assert (Hy : site2 4 (I3 i' j' 0, b)) by (split; [reflexivity|exact Hb]).
    split; [apply SW; assumption|]. split; [|split; [intros o; rewrite !ph_on by auto; reflexivity|]].
    - rewrite !ph_atom by auto. four a; pos_tac.
    - rewrite !ph_hop by auto. unfold ph_el, ph_up, in2. clear - Ha Hb. four a; four b; unfold cz; cbn -[Z.eqb Z.sub Z.opp Z.add Z.leb]; try reflexivity;
      destruct (3 <=? n)%Z, (4 <=? n)%Z, (5 <=? n)%Z; cbn [andb]; alleq; try lia; reflexivity.
  Qed.
  Lemma ph_cy : symmetry m l cy_pos cy.
  Proof.
    intros [[i j k] a] [[i' j' k'] b] Hx Hy. destruct Hx as [Z1 Ha], Hy as [Z2 Hb]. cbn in Z1, Z2, Ha, Hb. subst k k'.
    assert (SW : forall c, site2 4 c -> site2 4 (cy c)).
    { intros [[u v w] c] [E H]. cbn in E, H. subst w. split; [reflexivity|]. cbn [snd cy]. four c; cbn; lia. }
    assert (Hx : site2 4 (I3 i j 0, a)) by (split; [reflexivity|exact Ha]). assert (Hy : site2 4 (I3 i' j' 0, b)) by (split; [reflexivity|exact Hb]).
    split; [apply SW; assumption|]. split; [|split; [intros o; rewrite !ph_on by auto; reflexivity|]].
    - rewrite !ph_atom by auto. four a; pos_tac.
    - rewrite !ph_hop by auto. unfold ph_el, ph_up, in2. clear - Ha Hb. four a; four b; unfold cy; cbn -[Z.eqb Z.sub Z.opp Z.add Z.leb]; try reflexivity;
      destruct (3 <=? n)%Z, (4 <=? n)%Z, (5 <=? n)%Z; cbn [andb]; alleq; try lia; reflexivity.
  Qed.
End Sym.
