(* Property theorem C102: the matrix of a periodic model is the tight-binding operator of the crystal
   on Bloch waves, and its eigenvalues are the energies of the crystal.
   Model: Lattice.v, Foundation.v, Symmetry.v, Hamiltonian.v; specification: CrystalSpec.v; proofs:
   CrystalProofs.v, CrystalWaves.v. *)
From Coq Require Import Reals.
From Verif Require Import Base Rle Blocks Foundation Scalar Cplx Lattice LatticeSpec PropsLattice FoundationSpec PopulateFacts PropsFoundation
  Symmetry SymmetrySpec Hamiltonian HamiltonianSpec HamElements HamFacts HamCor SystemBuild PropsHamiltonian BulkSpec BlochProofs PropsBloch
  Spectral Materials MagneticProofs MaterialsSpec PropsDirac CrystalSpec CrystalProofs CrystalWaves.
From Coq Require Import Permutation.
Local Open Scope nat_scope.

(** The rows of the matrix, applied to the values of a wave on the sites of the system, give the
    values of the crystal's operator. *)
Theorem C102_operator :
  forall (R : scalar) (P : Type) offset_ok order (cs : list (lcall R P)) subs fams uc reg hreg size s valid fpos dflt shift cap,
  let l := calls offset_ok order cs in
  periodic_system l subs fams uc reg hreg size s valid fpos cap ->
  exists sys, build_system dflt size uc s shift reg hreg fpos valid = Ok sys /\
    (forall n, n < rle_size (hs_subs sys) <-> exists x, site_at size uc valid n x) /\
    (forall n x, site_at size uc valid n x -> norb_at (hs_subs sys) n = orbitals (l_subs l) x) /\
    forall unshift phase simple,
      (forall T, whole_periods s T -> kmul (phase (shift T)) (kconj (phase (shift T))) = k1 /\ kconj (phase (shift T)) = phase (shift (opposite T))) ->
      exists m, ham_make cap complex_type sys [] [] unshift phase simple = Ok m /\
      forall v psi, wave_of s (fun T => phase (shift T)) size uc valid (hs_subs sys) v psi ->
      forall n x p, site_at size uc valid n x -> p < orbitals (l_subs l) x ->
        ksum (fun j => kmul (coeff m (row_of (hs_subs sys) n p) j) (v j)) (seq 0 (hamiltonian_size (hs_subs sys))) = crystal (l_subs l) (l_fams l) psi x p.
Proof. intros R P oo order cs subs fams uc reg hreg size s valid fpos dflt shift cap l PS. exact (operator R P oo order cs subs fams uc reg hreg size s valid fpos dflt shift cap PS). Qed.
Print Assumptions C102_operator.

(** Every list of values on the orbitals of the system is a wave of the crystal. *)
Theorem C102_waves :
  forall (R : scalar) (P : Type) offset_ok order (cs : list (lcall R P)) subs fams uc reg hreg size s valid fpos dflt shift cap sys,
  periodic_system (calls offset_ok order cs) subs fams uc reg hreg size s valid fpos cap ->
  build_system dflt size uc s shift reg hreg fpos valid = Ok sys ->
  forall (ph : idx3 -> R) v, phases ph -> exists psi, wave_of s ph size uc valid (hs_subs sys) v psi.
Proof.
  intros R P oo order cs subs fams uc reg hreg size s valid fpos dflt shift cap sys PS ES ph v PH.
  destruct (operator R P oo order cs subs fams uc reg hreg size s valid fpos dflt shift cap PS) as (sys' & ES' & HN & _).
  assert (sys' = sys) by congruence. subst sys'.
  exact (wave_exists R P oo order cs subs fams uc reg hreg size s valid fpos cap PS ph (hs_subs sys) v PH HN).
Qed.
Print Assumptions C102_waves.

(** The eigenvalues of the matrix are the energies of the stationary states of the crystal of all
    periodic images of the sites of the system. *)
Theorem C102_energies :
  forall (R : scalar) (P : Type) offset_ok order (cs : list (lcall R P)) subs fams uc reg hreg size s valid fpos dflt shift cap,
  let l := calls offset_ok order cs in
  periodic_system l subs fams uc reg hreg size s valid fpos cap ->
  exists sys, build_system dflt size uc s shift reg hreg fpos valid = Ok sys /\
    forall unshift phase simple, phases (fun T => phase (shift T)) ->
      exists m, ham_make cap complex_type sys [] [] unshift phase simple = Ok m /\
      forall E, matrix_energy (hamiltonian_size (hs_subs sys)) (coeff m) E <->
        exists psi, bloch_state (l_subs l) (l_fams l) s (fun T => phase (shift T)) (fun x => exists n, image_site s size uc valid n x) E psi.
Proof. intros R P oo order cs subs fams uc reg hreg size s valid fpos dflt shift cap l PS. exact (energies R P oo order cs subs fams uc reg hreg size s valid fpos dflt shift cap PS). Qed.
Print Assumptions C102_energies.

(** ** Plane waves *)
Lemma corner_add : forall vs S T, corner vs (shifted_cell S T) = vadd (corner vs S) (corner vs T).
Proof.
  intros vs [a b c] [d e f]. unfold corner, shifted_cell. cbn [ix iy iz]. rewrite !plus_IZR. destruct (nth 0 vs v0) as [[? ?] ?], (nth 1 vs v0) as [[? ?] ?], (nth 2 vs v0) as [[? ?] ?].
  unfold vadd, vscale, vx, vy, vz. cbn [fst snd]. f_equal; [f_equal|]; ring.
Qed.
Lemma plane_wave_phases : forall k vs, phases (R := CX) (fun T => plane_wave k (corner vs T)).
Proof.
  intros k vs. assert (PW : forall d, plane_wave k d = expi (vx k * vx d + vy k * vy d + vz k * vz d)%R) by reflexivity. split; [|split].
  - rewrite PW, <- expi_0. f_equal. unfold corner, zero3, vadd, vscale, vx, vy, vz. cbn [ix iy iz]. rewrite !Rmult_0_l. cbn [fst snd]. ring.
  - intros S T. rewrite !PW, expi_add. f_equal. rewrite corner_add. unfold vadd, vx, vy, vz. cbn [fst snd]. ring.
  - intros T. rewrite !PW, <- expi_neg. f_equal. destruct T as [a b c]. unfold corner, opposite. cbn [ix iy iz]. rewrite !opp_IZR. unfold vadd, vscale, vx, vy, vz. cbn [fst snd]. ring.
Qed.

(** A crystal without missing sites: at every wave vector [k] the eigenvalues of the matrix are
    exactly the energies for which the tight-binding equation on all sites of the lattice has a
    solution that whole periods [T] multiply by [exp(-i k T)]. *)
Theorem C102_bands :
  forall offset_ok order (cs : list (lcall CX vec3)) subs fams uc reg hreg size s valid fpos dflt cap vs,
  let l := calls offset_ok order cs in
  periodic_system l subs fams uc reg hreg size s valid fpos cap -> all_sites size s uc valid ->
  exists sys, build_system dflt size uc s (corner vs) reg hreg fpos valid = Ok sys /\
    forall unshift simple (k : vec3), exists m, ham_make cap complex_type sys [] [] unshift (plane_wave k) simple = Ok m /\
      forall E : CX, matrix_energy (hamiltonian_size (hs_subs sys)) (coeff m) E <->
        exists psi, bloch_state (l_subs l) (l_fams l) s (fun T => plane_wave k (corner vs T))
          (fun x => in_slab size s (fst x) /\ exists sb, In sb (l_subs l) /\ sb_uid sb = snd x) E psi.
Proof.
  intros oo order cs subs fams uc reg hreg size s valid fpos dflt cap vs l PS AS.
  destruct (C102_energies CX vec3 oo order cs subs fams uc reg hreg size s valid fpos dflt (corner vs) cap PS) as (sys & ES & HE).
  exists sys. split; [exact ES|]. intros unshift simple k. destruct (HE unshift (plane_wave k) simple (plane_wave_phases k vs)) as (m & EM & HM).
  exists m. split; [exact EM|]. intros E. rewrite HM. fold l. pose proof (all_images CX vec3 oo order cs subs fams uc reg hreg size s valid fpos cap PS AS) as AI. cbn zeta in AI. fold l in AI.
  split; intros (psi & [B1 (x & p & X1 & X2 & X3) B3 B4]); exists psi; split; auto.
  - exists x, p. split; [apply AI; exact X1|auto].
  - intros y q N. apply B3. intros H. apply N, AI, H.
  - intros y q H. apply B4, AI, H.
  - exists x, p. split; [apply AI; exact X1|auto].
  - intros y q N. apply B3. intros H. apply N, AI, H.
  - intros y q H. apply B4, AI, H.
Qed.
Print Assumptions C102_bands.

(** The chain of two sublattices of C43, period of one cell, phase [i] per cell: the wave with the
    values [2] and [1 + i] in the home cell, on the whole chain. *)
Definition ipow (z : Z) : Z * Z := nth (Z.to_nat (z mod 4)) [(1, 0); (0, 1); (-1, 0); (0, -1)]%Z (0, 0)%Z.
Definition ssh_v (i : nat) : GI := nth i [(2, 0); (1, 1)]%Z (0, 0)%Z.
Definition ssh_wave (x : idx3 * nat) (q : nat) : GI := kmul (s := GI) (kconj (s := GI) (ipow (ix (fst x) - 1))) (if (q =? 0) && ((iy (fst x) =? 0)%Z && (iz (fst x) =? 0)%Z) then ssh_v (snd x) else (0, 0)%Z).
Lemma mod4 : forall z, (z mod 4 = 0 \/ z mod 4 = 1 \/ z mod 4 = 2 \/ z mod 4 = 3)%Z.
Proof. intros z. pose proof (Z.mod_pos_bound z 4 ltac:(lia)). lia. Qed.
Lemma ipow_phases : phases (R := GI) (fun T => ipow (ix T)).
Proof.
  split; [reflexivity|]. split.
  - intros [a b c] [d e f]. unfold ipow, shifted_cell. cbn [ix]. rewrite Zplus_mod. destruct (mod4 a) as [-> | [-> | [-> | ->]]], (mod4 d) as [-> | [-> | [-> | ->]]]; reflexivity.
  - intros [a b c]. unfold ipow, opposite. cbn [ix]. destruct (mod4 a) as [E | [E | [E | E]]].
    + rewrite Z.mod_opp_l_z by lia. rewrite E. reflexivity.
    + rewrite Z.mod_opp_l_nz by lia. rewrite E. reflexivity.
    + rewrite Z.mod_opp_l_nz by lia. rewrite E. reflexivity.
    + rewrite Z.mod_opp_l_nz by lia. rewrite E. reflexivity.
Qed.
(** Program and crystal give [1 + 5 i] and [8 - 2 i]; far away from the home cell the values repeat with the phase. *)
Example C102_example :
  obind ssh_system (fun sys => omap (fun m => map (fun i => ksum (R := GI) (fun j => kmul (s := GI) (coeff m i j) (ssh_v j)) (seq 0 2)) [0; 1])
    (ham_make 100 complex_type sys [] [] Z.sub ipow true)) = Ok [(1, 5); (8, -2)]%Z /\
  map (fun u => crystal (R := GI) (l_subs ssh) (l_fams ssh) ssh_wave (I3 1 0 0, u) 0) [0; 1] = [(1, 5); (8, -2)]%Z /\
  map (fun u => crystal (R := GI) (l_subs ssh) (l_fams ssh) ssh_wave (I3 8 0 0, u) 0) [0; 1] = [(-5, 1); (2, 8)]%Z.
Proof. vm_compute. repeat split; reflexivity. Qed.

Lemma mul_swap : forall (K : scalar) (x y z : K), kmul (kmul x y) z = kmul y (kmul x z).
Proof. intros K x y z. destruct (k_ring K) as [_ _ _ _ C A _ _ _]. rewrite (C x y). symmetry. apply A. Qed.

(** The hypotheses hold for this chain, and the wave is the one with these values. *)
Definition the {A} (d : A) (o : outcome A) : A := match o with Ok a => a | _ => d end.
Definition ssh_uc := the [] (unit_cell (l_subs ssh) (l_fams ssh)).
Definition ssh_sym := Sym (Some 1%Z) None None.
Definition ssh_valid := [false; true; false; false; true; false].
Lemma ssh_periodic : periodic_system ssh (l_subs ssh) (l_fams ssh) ssh_uc (the [] (site_registry (l_subs ssh))) (the [] (hopping_registry (l_fams ssh))) (I3 3 1 1) ssh_sym ssh_valid (repeat 0%Z 6) 100.
Proof.
  split; try reflexivity.
  - intros x o Hx Ho E. cbn in Hx, Ho. destruct Hx as [<-|[<-|[]]], Ho as [<-|[<-|[]]]; reflexivity || discriminate E.
  - unfold positive_block. cbn. lia.
  - unfold block_holds_period. cbn. lia.
  - intros [a b c] u (C1 & C2 & C3) La F. cbn [ix iy iz] in *. assert (b = 0%Z) by lia. assert (c = 0%Z) by lia. subst b c.
    assert (u = 0 \/ u = 1) as [-> | ->] by (change (length ssh_uc) with 2 in La; lia);
    assert (a = 0 \/ a = 1 \/ a = 2)%Z as [-> | [-> | ->]] by lia; try discriminate F; unfold in_period, in_period1; cbn; lia.
  - intros fam t Hf Ht. cbn in Hf. destruct Hf as [<-|[<-|[]]]; cbn in Ht; destruct Ht as [<-|[]]; unfold short_range, short1; cbn; auto.
  - intros f Hf. cbn in Hf. destruct Hf as [<-|[<-|[]]]; cbn; lia.
Qed.
Definition ssh_rle : rle := the [] (omap hs_subs ssh_system).
Example C102_example_wave : omap hs_subs ssh_system = Ok ssh_rle /\
  wave_of (R := GI) ssh_sym (fun T => ipow (ix T)) (I3 3 1 1) ssh_uc ssh_valid ssh_rle ssh_v ssh_wave.
Proof.
  split; [vm_compute; reflexivity|]. split.
  - intros [[a b c] u] T q (N & k1 & k2 & k3 & E). cbn in E. subst T.
    destruct ipow_phases as (_ & HA & _). unfold ssh_wave, moved_site. cbn [fst snd shifted_cell ix].
    pose proof (HA (I3 (a - 1) 0 0) (I3 (k1 * 1) 0 0)) as Q. cbn [shifted_cell ix] in Q. replace (a + k1 * 1 - 1)%Z with (a - 1 + k1 * 1)%Z by ring. rewrite Q.
    rewrite kconj_mul. unfold shifted_cell. cbn [ix iy iz]. replace (b + k2 * 0)%Z with b by ring. replace (c + k3 * 0)%Z with c by ring.
    apply (mul_swap GI).
  - intros n [[a b c] u] q (i & (C1 & C2 & C3) & U & F & ->) Hq. cbn [fst snd ix iy iz] in *. assert (b = 0%Z) by lia. assert (c = 0%Z) by lia. subst b c.
    assert (i = 0 \/ i = 1) as [-> | ->] by (unfold uid_at in U; destruct i as [|[|i]]; auto; destruct i; discriminate U);
    assert (a = 0 \/ a = 1 \/ a = 2)%Z as [-> | [-> | ->]] by lia; try discriminate F; injection U as <-; vm_compute in Hq; assert (q = 0) by lia; subst q; reflexivity.
  - intros [[a b c] u] q N. unfold ssh_wave. cbn [fst snd ix iy iz]. destruct ((q =? 0) && ((b =? 0)%Z && (c =? 0)%Z)) eqn:Eq; [|apply (kmul_0_r GI)].
    rewrite !andb_true_iff, Nat.eqb_eq, !Z.eqb_eq in Eq. destruct Eq as (-> & -> & ->).
    assert (V : u < 2 \/ ssh_v u = (0, 0)%Z) by (destruct u as [|[|u]]; [left; lia|left; lia|right; destruct u; reflexivity]).
    destruct V as [L|V]; [|rewrite V; apply (kmul_0_r GI)]. exfalso.
    apply (N (number ssh_valid (place (I3 3 1 1) (I3 1 0 0) u))). exists (I3 (1 - a) 0 0). split.
    + destruct (Z.eq_dec a 1) as [->|Na]; [left; reflexivity|right]. split; [intros E; apply (f_equal ix) in E; cbn [ix zero3] in E; lia|]. exists (1 - a)%Z, 0%Z, 0%Z. unfold ssh_sym, period. cbn [sy1 sy2 sy3]. f_equal; lia.
    + unfold moved_site, shifted_cell. cbn [fst snd ix iy iz]. replace (a + (1 - a))%Z with 1%Z by lia. exists u. cbn [fst snd]. change (0 + 0)%Z with 0%Z.
      destruct u as [|[|u]]; [| |lia]; (split; [unfold cell_of; cbn [ix iy iz]; lia|repeat split]).
Qed.
