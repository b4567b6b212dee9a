(* C69: phosphorene. *)
From Coq Require Import Reals Lra Lia ZArith.
From Verif Require Import Base Scalar Foundation Lattice LatticeSpec FoundationSpec Hamiltonian BulkSpec Materials MaterialsSpec MaterialsProofs GrapheneProofs PhosphoreneSpec PhosphoreneProofs.
Local Open Scope R_scope.

(** For two to five hopping energies the lattice is accepted and has the symmetries of the puckered
    layer; other numbers are refused. *)
Theorem C69 : forall (K : scalar) offset_ok order n (z t1 t2 t3 t4 t5 : K),
  real_energy z -> real_energy t1 -> real_energy t2 -> real_energy t3 -> real_energy t4 -> real_energy t5 ->
  match phosphorene n z t1 t2 t3 t4 t5 with
  | None => (n < 2)%Z \/ (5 < n)%Z
  | Some m => (2 <= n <= 5)%Z /\ exists l, run offset_ok order (mt_calls m) = Some l /\
      symmetry m l my_pos my /\ symmetry m l cz_pos cz /\ symmetry m l cy_pos cy
  end.
Proof.
  intros K oo order n z t1 t2 t3 t4 t5 Rz R1 R2 R3 R4 R5. destruct (phosphorene n z t1 t2 t3 t4 t5) as [m|] eqn:E.
  - destruct (ph_run K oo order n z t1 t2 t3 t4 t5 m Rz E) as (N & _ & Er). split; [exact N|]. eexists. split; [exact Er|].
    split; [|split]; [exact (ph_my K n z t1 t2 t3 t4 t5 m oo order _ Rz R1 R2 R3 R4 R5 E Er)|exact (ph_cz K n z t1 t2 t3 t4 t5 m oo order _ Rz R1 R2 R3 R4 R5 E Er)|exact (ph_cy K n z t1 t2 t3 t4 t5 m oo order _ Rz R1 R2 R3 R4 R5 E Er)].
  - unfold phosphorene in E. destruct (Z.ltb_spec n 2); [left; assumption|]. destruct (Z.ltb_spec 5 n); [right; assumption|discriminate].
Qed.
Print Assumptions C69.

(** ** Lengths of the bonds *)
Lemma cos_half : 1/2 < cos (p_theta / 2) /\ cos (p_theta / 2) * cos (p_theta / 2) < 1/2.
Proof.
  pose proof PI_RGT_0 as P. unfold p_theta.
  assert (A : 1/2 < cos (9679 / 100 * (PI / 180) / 2)).
  { rewrite <- cos_PI3. apply cos_decreasing_1; lra. }
  split; [exact A|].
  assert (B : cos (9679 / 100 * (PI / 180) / 2) < cos (PI / 4)) by (apply cos_decreasing_1; lra).
  rewrite cos_PI4 in B. assert (S : sqrt 2 * sqrt 2 = 2) by (apply sqrt_sqrt; lra). assert (S0 : 0 < sqrt 2) by (apply sqrt_lt_R0; lra).
  assert (Q : 1 / sqrt 2 * (1 / sqrt 2) = 1/2). { replace (1 / sqrt 2 * (1 / sqrt 2)) with (1 / (sqrt 2 * sqrt 2)) by (field; lra). rewrite S. reflexivity. }
  nra.
Qed.
Lemma h_bound : 0 < p_h < 111/1000.
Proof.
  pose proof PI_RGT_0 as P. unfold p_h, p_a, p_phi.
  assert (A : 0 < sin (10369 / 100 * (PI / 180) - PI / 2)) by (apply sin_gt_0; lra).
  assert (B : sin (10369 / 100 * (PI / 180) - PI / 2) < sin (PI / 6)) by (apply sin_increasing_1; lra).
  rewrite sin_PI6 in B. lra.
Qed.

(** The bonds of t1 have the length they should have ... *)
Theorem C69_bonds_partial : forall (K : scalar) offset_ok order (z t1 t3 t4 t5 : K) m l,
  real_energy z -> real_energy t1 -> real_energy t3 -> real_energy t4 -> real_energy t5 ->
  phosphorene 2 z t1 k0 t3 t4 t5 = Some m -> run offset_ok order (mt_calls m) = Some l ->
  forall x y, site2 4 x -> site2 4 y -> hopping l x y <> k0 -> bond_length (dist2 (atom m l x) (atom m l y)).
Proof.
  intros K oo order z t1 t3 t4 t5 m l Rz R1 R3 R4 R5 Em Er x y Hx Hy.
  rewrite (ph_hop K 2 z t1 k0 t3 t4 t5 m oo order l Rz R1 (kconj_0 K) R3 R4 R5 Em Er x y Hx Hy).
  rewrite !(ph_atom K 2 z t1 k0 t3 t4 t5 m oo order l Rz Em Er) by assumption.
  destruct x as [[i j k] a], y as [[i' j' k'] b]. destruct Hx as [_ Ha], Hy as [_ Hb]. cbn [fst snd ix iy] in *.
  set (p := (i' - i)%Z). set (q := (j' - j)%Z). intros H.
  assert (Ei : i' = (i + p)%Z) by (unfold p; lia). assert (Ej : j' = (j + q)%Z) by (unfold q; lia). clearbody p q. subst i' j'.
  unfold dist2. rewrite !plus_IZR. cbn [vx vy vz fst snd].
  unfold ph_el, ph_up, in2 in H.
  assert (X : forall b : bool, (if b then k0 else k0) = @k0 K) by (intros []; reflexivity).
  destruct cos_half as [C1 C2]. unfold bond_length.
  assert (G : forall u v w, u * u = p_a * cos (p_theta / 2) * (p_a * cos (p_theta / 2)) -> v * v = p_ay / 2 * (p_ay / 2) -> w = 0 ->
    (p_a - 3 / 100) * (p_a - 3 / 100) <= u * u + v * v + w * w <= (p_a + 3 / 100) * (p_a + 3 / 100)).
  { intros u v w -> -> ->. unfold p_a, p_ay. split; nra. }
  four a; four b; cbn -[Z.eqb Z.opp] in H; rewrite ?Bool.andb_false_r, ?X in H; try (exfalso; apply H; reflexivity);
  repeat match type of H with context [(?u =? ?v)%Z] => destruct (Z.eqb_spec u v) end; cbn in H; try (exfalso; apply H; reflexivity); try (exfalso; lia);
  try (replace p with 0%Z in * by lia); try (replace p with 1%Z in * by lia); try (replace p with (-1)%Z in * by lia);
  try (replace q with 0%Z in * by lia); try (replace q with 1%Z in * by lia); try (replace q with (-1)%Z in * by lia);
  unfold ph_pos, vx, vy, vz; cbv beta iota delta [fst snd]; apply G; unfold p_s; field.
Qed.
Print Assumptions C69_bonds_partial.

(** ... but the bonds of t2 are much too short: the height of the layer is computed with the sine of
    [phi - pi/2] where the cosine is meant. *)
Theorem C69_bonds_refuted : ~ C69_bonds_claim.
Proof.
  intros C. destruct (phosphorene (K := GI) 2 (0, 0)%Z (1, 0)%Z (3, 0)%Z (0, 0)%Z (0, 0)%Z (0, 0)%Z) as [m|] eqn:Em; [|discriminate].
  destruct (ph_run GI (fun _ => true) (fun x => x) 2 (0, 0)%Z (1, 0)%Z (3, 0)%Z (0, 0)%Z (0, 0)%Z (0, 0)%Z m eq_refl Em) as (_ & _ & Er).
  specialize (C GI (fun _ => true) (fun x => x) (0, 0)%Z (1, 0)%Z (3, 0)%Z (0, 0)%Z (0, 0)%Z (0, 0)%Z m _ eq_refl eq_refl eq_refl eq_refl eq_refl eq_refl Em Er (zero3, 0%nat) (zero3, 1%nat)).
  assert (Hx : site2 4 (zero3, 0%nat)) by (split; cbn; lia). assert (Hy : site2 4 (zero3, 1%nat)) by (split; cbn; lia).
  specialize (C Hx Hy). rewrite (ph_hop GI 2 (0, 0)%Z (1, 0)%Z (3, 0)%Z (0, 0)%Z (0, 0)%Z (0, 0)%Z m (fun _ => true) (fun x => x) _ eq_refl eq_refl eq_refl eq_refl eq_refl eq_refl Em Er _ _ Hx Hy) in C.
  assert (D : bond_length (dist2 (atom m (Lat (ph_subs GI (0, 0)%Z) (ph_fams GI 2 (1, 0)%Z (3, 0)%Z (0, 0)%Z (0, 0)%Z (0, 0)%Z) None 2) (zero3, 0%nat))
    (atom m (Lat (ph_subs GI (0, 0)%Z) (ph_fams GI 2 (1, 0)%Z (3, 0)%Z (0, 0)%Z (0, 0)%Z (0, 0)%Z) None 2) (zero3, 1%nat)))) by (apply C; vm_compute; discriminate).
  clear C. rewrite !(ph_atom GI 2 (0, 0)%Z (1, 0)%Z (3, 0)%Z (0, 0)%Z (0, 0)%Z (0, 0)%Z m (fun _ => true) (fun x => x) _ eq_refl Em Er) in D by assumption.
  unfold bond_length, dist2, ph_pos, vx, vy, vz, zero3 in D. cbn [fst snd ix iy] in D. cbv beta iota delta [fst snd] in D.
  destruct D as [D _]. destruct h_bound as [H1 H2]. destruct cos_half as [C1 C2].
  assert (S : 0 < p_s < 109/1000). { unfold p_s, p_ax, p_a. split; nra. }
  clear Er Em. unfold p_a in D. assert (p_s * p_s < 109/1000 * (109/1000)) by nra. assert (p_h * p_h < 111/1000 * (111/1000)) by nra. nra.
Qed.
Print Assumptions C69_bonds_refuted.

(** Cells and sublattices of two images; a bond and its image. *)
Example C69_example : cz (I3 2 5 0, 0%nat) = (I3 (-2) (-5) 0, 3%nat) /\ cy (I3 2 5 0, 2%nat) = (I3 (-3) 5 0, 3%nat) /\ my (I3 2 5 0, 1%nat) = (I3 2 (-4) 0, 1%nat) /\
  exists m l, phosphorene (K := GI) 5 (0, 0)%Z (-1220, 0)%Z (3665, 0)%Z (-205, 0)%Z (-105, 0)%Z (-55, 0)%Z = Some m /\ run (fun _ => true) (fun x => x) (mt_calls m) = Some l /\
    hopping l (I3 0 0 0, 0%nat) (I3 (-1) 0 0, 1%nat) = (-55, 0)%Z /\ hopping l (cz (I3 0 0 0, 0%nat)) (cz (I3 (-1) 0 0, 1%nat)) = (-55, 0)%Z.
Proof.
  split; [reflexivity|]. split; [reflexivity|]. split; [reflexivity|].
  destruct (phosphorene (K := GI) 5 (0, 0)%Z (-1220, 0)%Z (3665, 0)%Z (-205, 0)%Z (-105, 0)%Z (-55, 0)%Z) as [m|] eqn:Em; [|discriminate].
  destruct (ph_run GI (fun _ => true) (fun x => x) 5 (0, 0)%Z (-1220, 0)%Z (3665, 0)%Z (-205, 0)%Z (-105, 0)%Z (-55, 0)%Z m eq_refl Em) as (_ & _ & Er).
  exists m. eexists. split; [reflexivity|]. split; [exact Er|]. unfold hopping. cbn [l_fams]. split; vm_compute; reflexivity.
Qed.
