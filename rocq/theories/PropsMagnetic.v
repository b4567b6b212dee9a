(* C70: the magnetic field modifier of the graphene repository. *)
From Coq Require Import Reals Lra Lia.
From Verif Require Import Base Rle Blocks TablesSpec Scalar Foundation Lattice Hamiltonian HamiltonianSpec HamCor Cplx Spectral Materials MaterialsSpec GrapheneModifiers MagneticProofs PropsHamiltonian.
Local Open Scope R_scope.

(** Signed area between a segment and the x axis, in nm^2, positive for segments going to the left
    above the axis; magnetic flux of [B] tesla through an area in nm^2; the Peierls phase. *)
Definition strip (p q : vec3) : R := (vx p - vx q) * (vy p + vy q) / 2.
Definition flux (B area : R) : R := B * area / 10 ^ 18.
Definition peierls (B : R) (p q : vec3) : CX := expi (2 * PI * (flux B (strip p q) / phi0)).

(** Closed polygons: consecutive corners and back to the first; area by the shoelace formula,
    positive when the corners go round anticlockwise. *)
Definition sides {A} (l : list A) : list (A * A) := match l with [] => [] | a :: t => combine l (t ++ [a]) end.
Definition rsum_over {A} (f : A -> R) (l : list A) : R := fold_right (fun a s => f a + s) 0 l.
Definition shoelace (ps : list vec3) : R :=
  rsum_over (fun e => (vx (fst e) * vy (snd e) - vx (snd e) * vy (fst e)) / 2) (sides ps).
Definition product {A} (f : A -> CX) (l : list A) : CX := fold_right (fun a s => kmul (f a) s) k1 l.

Add Ring CXr : (k_ring CX).

Lemma magnetic_is_peierls : forall B p q x, magnetic_func B p q x = kmul x (peierls B p q).
Proof.
  intros B p q x. unfold magnetic_func, peierls. f_equal. f_equal. unfold magnetic_const, flux, strip. field.
  unfold phi0, hbar. pose proof PI_RGT_0. lra.
Qed.
Lemma peierls_back : forall B p q, peierls B q p = kconj (peierls B p q).
Proof. intros. unfold peierls. rewrite <- expi_neg. f_equal. unfold flux, strip. unfold Rdiv. ring. Qed.
Lemma peierls_self : forall B p, peierls B p p = k1.
Proof. intros. unfold peierls. rewrite <- expi_0. f_equal. unfold flux, strip, Rdiv. ring. Qed.

Definition magnetic_rule (B : R) : hop_rule CX vec3 :=
  fun _ p q A => Mat (m_rows A) (m_cols A) (fun i j => magnetic_func B p q (m_at A i j)).
Lemma magnetic_follows : forall B, hop_follows (constant_magnetic_field B) (magnetic_rule B).
Proof. intros B. exact (each_hopping_follows (magnetic_func B)). Qed.

(** The field multiplies every matrix element of a finite system by the Peierls phase between the
    two sites, whatever the lattice, the number of orbitals and the other modifiers. *)
Theorem C70 :
  forall (sys : hsys CX vec3) om og hm hg un ph simple cap B,
  wf_hsys sys -> Forall2 os_follows om og -> Forall2 hop_follows hm hg -> cap_fits CX vec3 sys cap ->
  (simple = true -> simple_bonds sys) -> hs_bounds sys = [] ->
  exists m0 mB, ham_make cap complex_type sys om hm un ph simple = Ok m0 /\
    ham_make cap complex_type sys om (hm ++ [constant_magnetic_field B]) un ph simple = Ok mB /\
    forall s t p q i j, nth_error (hs_pos sys) s = Some p -> nth_error (hs_pos sys) t = Some q ->
      (i < norb_at (hs_subs sys) s)%nat -> (j < norb_at (hs_subs sys) t)%nat ->
      coeff mB (row_of (hs_subs sys) s i) (row_of (hs_subs sys) t j)
      = kmul (coeff m0 (row_of (hs_subs sys) s i) (row_of (hs_subs sys) t j)) (peierls B p q).
Proof.
  intros sys om og hm hg un ph simple cap B W Ho Hh C S HB.
  assert (NT : nt_ok (@complex_type CX)) by (exact (complex_ok CX)).
  destruct (C18_elements_partial CX vec3 complex_type sys om og hm hg un ph simple cap NT W Ho Hh C S) as (m0 & E0 & _ & P0).
  assert (Hh' : Forall2 hop_follows (hm ++ [constant_magnetic_field B]) (hg ++ [magnetic_rule B])).
  { apply Forall2_app; [exact Hh|]. constructor; [apply magnetic_follows|constructor]. }
  destruct (C18_elements_partial CX vec3 complex_type sys om og _ _ un ph simple cap NT W Ho Hh' C S) as (mB & E1 & _ & P1).
  exists m0, mB. split; [exact E0|]. split; [exact E1|]. intros s t p q i j Hp Hq Hi Hj.
  assert (L : length (hs_pos sys) = rle_size (hs_subs sys)) by apply W.
  assert (Hs : (s < rle_size (hs_subs sys))%nat) by (rewrite <- L; apply nth_error_Some; congruence).
  assert (Ht : (t < rle_size (hs_subs sys))%nat) by (rewrite <- L; apply nth_error_Some; congruence).
  rewrite P0, P1 by assumption. apply (element_scaled sys og hg (peierls B)); auto.
  - intros; apply magnetic_is_peierls.
  - intros; apply peierls_back.
  - intros ->. replace q with p by congruence. apply peierls_self.
Qed.
Print Assumptions C70.

(** The phases are numbers of modulus one; going back conjugates, and so does the opposite field;
    fields add up; moving the whole system changes the phases by a gauge transformation only. *)
Theorem C70_phases : forall B p q,
  abs2 (peierls B p q) = 1 /\ peierls B q p = kconj (peierls B p q) /\ peierls (- B) p q = kconj (peierls B p q) /\
  (forall B', kmul (peierls B p q) (peierls B' p q) = peierls (B + B') p q) /\
  forall d, let u := fun r => expi (2 * PI * (flux B (vx r * vy d) / phi0)) in
    peierls B (vadd p d) (vadd q d) = kmul (kmul (u p) (peierls B p q)) (kconj (u q)).
Proof.
  intros B p q. split.
  { unfold peierls, expi, abs2, mk. cbn [fst snd]. rewrite Rplus_comm. exact (sin2_cos2 _). }
  split; [apply peierls_back|]. split.
  { unfold peierls. rewrite <- expi_neg. f_equal. unfold flux, strip, Rdiv. ring. }
  split.
  { intros B'. unfold peierls. rewrite expi_add. f_equal. unfold flux, strip, Rdiv. ring. }
  intros [[d1 d2] d3] u. destruct p as [[p1 p2] p3], q as [[q1 q2] q3]. unfold u, peierls. rewrite <- expi_neg, !expi_add. f_equal.
  unfold flux, strip, vadd, vx, vy. cbv beta iota delta [fst snd]. field. unfold phi0, hbar. pose proof PI_RGT_0. lra.
Qed.
Print Assumptions C70_phases.

(** *** Flux *)
Lemma strip_steps : forall t b z, let l := combine (b :: t) (t ++ [z]) in
  rsum_over (fun e => strip (fst e) (snd e)) l - rsum_over (fun e => (vx (fst e) * vy (snd e) - vx (snd e) * vy (fst e)) / 2) l
  = (vx b * vy b - vx z * vy z) / 2.
Proof.
  induction t as [|c t IH]; intros b z; cbn [combine app rsum_over fold_right fst snd].
  - unfold strip. field.
  - specialize (IH c z). cbn zeta in IH |- *. cbn [app] in IH. unfold rsum_over in *.
    match goal with |- ?x + ?A - (?y + ?C) = _ => replace (x + A - (y + C)) with ((A - C) + (x - y)) by ring end.
    change (match t ++ [z] with [] => [] | y :: tl' => (c, y) :: combine t tl' end) with (combine (c :: t) (t ++ [z])). rewrite IH. unfold strip. field.
Qed.
Lemma strip_area : forall ps, rsum_over (fun e => strip (fst e) (snd e)) (sides ps) = shoelace ps.
Proof.
  intros [|a t]; [reflexivity|]. unfold shoelace, sides. pose proof (strip_steps t a a) as H. cbn zeta in H. lra.
Qed.
Lemma product_ext : forall A (f g : A -> CX) l, (forall a, In a l -> f a = g a) -> product f l = product g l.
Proof. intros A f g l H. induction l as [|a l IH]; [reflexivity|]. cbn [product fold_right] in *. unfold product in IH. rewrite IH, H; [reflexivity|left; reflexivity|]. intros x Hx. apply H. right. exact Hx. Qed.
Lemma product_mul : forall A (f g : A -> CX) l, product (fun a => kmul (f a) (g a)) l = kmul (product f l) (product g l).
Proof. intros A f g l. induction l as [|a l IH]; cbn [product fold_right]; [unfold product; cbn [fold_right]; ring|]. unfold product in *. cbn [fold_right]. rewrite IH. ring. Qed.
Lemma product_expi : forall A (f : A -> R) l, product (fun a => expi (f a)) l = expi (rsum_over f l).
Proof. intros A f l. induction l as [|a l IH]; cbn [product rsum_over fold_right]; [symmetry; apply expi_0|]. unfold product, rsum_over in *. rewrite IH. apply expi_add. Qed.
Lemma rsum_over_scale : forall A c (f : A -> R) l, rsum_over (fun a => c * f a) l = c * rsum_over f l.
Proof. intros A c f l. induction l as [|a l IH]; unfold rsum_over in *; cbn [fold_right]; [ring|]. rewrite IH. ring. Qed.
Lemma rsum_over_ext : forall A (f g : A -> R) l, (forall a, f a = g a) -> rsum_over f l = rsum_over g l.
Proof. intros A f g l H. induction l as [|a l IH]; [reflexivity|]. unfold rsum_over in *. cbn [fold_right]. rewrite IH, H. reflexivity. Qed.

Lemma polygon_phase : forall B ps, product (fun e => peierls B (fst e) (snd e)) (sides ps) = expi (2 * PI * (flux B (shoelace ps) / phi0)).
Proof.
  intros B ps. unfold peierls. rewrite (product_expi _ (fun e => 2 * PI * (flux B (strip (fst e) (snd e)) / phi0))).
  f_equal. rewrite <- strip_area.
  rewrite (rsum_over_ext _ _ (fun e => 2 * PI * (B / 10 ^ 18 / phi0) * strip (fst e) (snd e))).
  2: { intros e. unfold flux, Rdiv. ring. }
  rewrite rsum_over_scale. unfold flux, Rdiv. ring.
Qed.

Lemma combine_map2 : forall A B (f : A -> B) l l', combine (map f l) (map f l') = map (fun e => (f (fst e), f (snd e))) (combine l l').
Proof. intros A B f l. induction l as [|a l IH]; intros [|b l']; cbn; try reflexivity. rewrite IH. reflexivity. Qed.
Lemma sides_map : forall A B (f : A -> B) l, sides (map f l) = map (fun e => (f (fst e), f (snd e))) (sides l).
Proof. intros A B f [|a t]; [reflexivity|]. unfold sides. cbn [map]. rewrite <- combine_map2. cbn [map]. rewrite map_app. reflexivity. Qed.
Lemma product_map : forall A B (f : A -> B) (g : B -> CX) l, product g (map f l) = product (fun a => g (f a)) l.
Proof. intros A B f g l. induction l as [|a l IH]; [reflexivity|]. unfold product in *. cbn [map fold_right]. rewrite IH. reflexivity. Qed.
Lemma sides_in : forall A (l : list A) e, In e (sides l) -> In (fst e) l /\ In (snd e) l.
Proof.
  intros A [|a t] [x y] H; [destruct H|]. unfold sides in H. cbn [fst snd]. split; [exact (in_combine_l _ _ _ _ H)|].
  apply in_combine_r in H. apply in_app_iff in H. destruct H as [H|[H|[]]]; [right; exact H|left; exact H].
Qed.

(** Round any closed loop of sites of any finite system the field multiplies the product of the
    matrix elements by exp(2 pi i flux/phi0), the flux being that through the polygon; nothing
    changes when it is a whole number of flux quanta. *)
Theorem C70_flux :
  forall (sys : hsys CX vec3) om og hm hg un ph simple cap B,
  wf_hsys sys -> Forall2 os_follows om og -> Forall2 hop_follows hm hg -> cap_fits CX vec3 sys cap ->
  (simple = true -> simple_bonds sys) -> hs_bounds sys = [] ->
  exists m0 mB, ham_make cap complex_type sys om hm un ph simple = Ok m0 /\
    ham_make cap complex_type sys om (hm ++ [constant_magnetic_field B]) un ph simple = Ok mB /\
    forall loop : list (nat * nat), (forall x, In x loop -> (fst x < rle_size (hs_subs sys))%nat /\ (snd x < norb_at (hs_subs sys) (fst x))%nat) ->
    let at_ (m : sparse CX) (e : (nat * nat) * (nat * nat)) :=
      coeff m (row_of (hs_subs sys) (fst (fst e)) (snd (fst e))) (row_of (hs_subs sys) (fst (snd e)) (snd (snd e))) in
    let area := shoelace (map (fun x => nth (fst x) (hs_pos sys) v0) loop) in
    product (at_ mB) (sides loop) = kmul (product (at_ m0) (sides loop)) (expi (2 * PI * (flux B area / phi0))) /\
    forall n : Z, flux B area = IZR n * phi0 -> product (at_ mB) (sides loop) = product (at_ m0) (sides loop).
Proof.
  intros sys om og hm hg un ph simple cap B W Ho Hh C S HB.
  destruct (C70 sys om og hm hg un ph simple cap B W Ho Hh C S HB) as (m0 & mB & E0 & E1 & P).
  exists m0, mB. split; [exact E0|]. split; [exact E1|]. intros loop HL at_ area.
  assert (L : length (hs_pos sys) = rle_size (hs_subs sys)) by apply W.
  assert (M : product (at_ mB) (sides loop) = kmul (product (at_ m0) (sides loop)) (expi (2 * PI * (flux B area / phi0)))).
  { unfold area. rewrite <- polygon_phase, sides_map, product_map, <- product_mul. apply product_ext. intros [x y] Hin.
    destruct (sides_in _ _ _ Hin) as [Hx Hy]. destruct (HL _ Hx) as [Hx1 Hx2]. destruct (HL _ Hy) as [Hy1 Hy2]. unfold at_. cbn [fst snd] in *.
    apply P; try assumption; apply nth_error_nth'; lia. }
  split; [exact M|]. intros n Hn. rewrite M, Hn.
  replace (2 * PI * (IZR n * phi0 / phi0)) with (2 * IZR n * PI).
  2: { field. unfold phi0, hbar. pose proof PI_RGT_0. lra. }
  replace (expi (2 * IZR n * PI)) with (@k1 CX); [ring|].
  unfold expi, mk. cbn [k1 CX]. f_equal.
  - replace (2 * IZR n * PI) with (2 * (IZR n * PI)) by ring. rewrite cos_2a_sin.
    rewrite sin_eq_0_1; [ring|]. exists n. reflexivity.
  - symmetry. apply sin_eq_0_1. exists (2 * n)%Z. rewrite mult_IZR. ring.
Qed.
Print Assumptions C70_flux.

(** A square of four sites with a quarter of a flux quantum: the product round it is i instead of 1. *)
Definition square_sys : hsys CX vec3 :=
  HSys [Elem 0 4 1] [(0, 0, 0); (1, 0, 0); (1, 1, 0); (0, 1, 0)] [(Nm 0, Mat 1 1 (fun _ _ => re 0))] [(Nm 0, Mat 1 1 (fun _ _ => re (-1)))]
    (HB 4 [[(0, 1); (1, 2); (2, 3); (3, 0)]])%nat [].
Lemma expi_quarter : expi (PI / 2) = mk 0 1.
Proof. unfold expi. rewrite cos_PI2, sin_PI2. reflexivity. Qed.
Example C70_example : exists m0 mB,
  ham_make 10 complex_type square_sys [] [] (fun p _ => p) (fun _ => k1) true = Ok m0 /\
  ham_make 10 complex_type square_sys [] [constant_magnetic_field (phi0 * 10 ^ 18 / 4)] (fun p _ => p) (fun _ => k1) true = Ok mB /\
  let loop (m : sparse CX) := kmul (kmul (coeff m 0 1) (coeff m 1 2)) (kmul (coeff m 2 3) (coeff m 3 0)) in
  loop m0 = re 1 /\ loop mB = mk 0 1 /\ shoelace (hs_pos square_sys) = 1.
Proof.
  assert (W : wf_hsys square_sys).
  { split; [reflexivity|]. split; [reflexivity|]. split; [intros e [<-|[]]; cbn; lia|]. split; [|intros b []].
    split; [cbn; lia|]. intros f c H. cbn in H. destruct H as [H|[H|[H|[H|[]]]]]; injection H as <- <-; cbn; lia. }
  destruct (C70_flux square_sys [] [] [] [] (fun p _ => p) (fun _ => k1) true 10 (phi0 * 10 ^ 18 / 4) W (Forall2_nil _) (Forall2_nil _))
    as (m0 & mB & E0 & E1 & P); [| |reflexivity|].
  { intros h [->|[]] f c H. cbn in H. destruct H as [H|[H|[H|[H|[]]]]]; injection H as <- <-; cbn; lia. }
  { intros _. unfold simple_bonds. cbn. repeat constructor; cbn; intuition congruence. }
  exists m0, mB. split; [exact E0|]. split; [exact E1|]. intros loop.
  assert (A : shoelace (hs_pos square_sys) = 1) by (cbv [shoelace sides hs_pos square_sys combine app rsum_over fold_right fst snd vx vy]; field).
  assert (C : cap_fits CX vec3 square_sys 10).
  { intros h [->|[]] f c H. cbn in H. destruct H as [H|[H|[H|[H|[]]]]]; injection H as <- <-; cbn; lia. }
  assert (S : simple_bonds square_sys) by (unfold simple_bonds; cbn; repeat constructor; cbn; intuition congruence).
  destruct (C18_elements_partial CX vec3 complex_type square_sys [] [] [] [] (fun p _ => p) (fun _ => k1) true 10 (complex_ok CX) W (Forall2_nil _) (Forall2_nil _) C (fun _ => S)) as (m0' & E0' & _ & P0).
  assert (m0' = m0) by congruence. subst m0'.
  assert (L : loop m0 = re 1).
  { unfold loop.
    pose proof (P0 0 0 1 0 ltac:(cbn; lia) ltac:(cbn; lia) ltac:(cbn; lia) ltac:(cbn; lia))%nat as Q1.
    pose proof (P0 1 0 2 0 ltac:(cbn; lia) ltac:(cbn; lia) ltac:(cbn; lia) ltac:(cbn; lia))%nat as Q2.
    pose proof (P0 2 0 3 0 ltac:(cbn; lia) ltac:(cbn; lia) ltac:(cbn; lia) ltac:(cbn; lia))%nat as Q3.
    pose proof (P0 3 0 0 0 ltac:(cbn; lia) ltac:(cbn; lia) ltac:(cbn; lia) ltac:(cbn; lia))%nat as Q4.
    change (row_of (hs_subs square_sys) 0 0) with 0%nat in *. change (row_of (hs_subs square_sys) 1 0) with 1%nat in *.
    change (row_of (hs_subs square_sys) 2 0) with 2%nat in *. change (row_of (hs_subs square_sys) 3 0) with 3%nat in *.
    rewrite Q1, Q2, Q3, Q4. cbv -[Rplus Rmult Ropp IZR Rminus]. f_equal; ring. }
  split; [exact L|]. split; [|exact A].
  specialize (P [(0, 0); (1, 0); (2, 0); (3, 0)]%nat). cbn zeta in P. destruct P as [P _].
  { intros x [<-|[<-|[<-|[<-|[]]]]]; cbn; lia. }
  change (map _ _) with (hs_pos square_sys) in P. rewrite A in P.
  replace (2 * PI * (flux (phi0 * 10 ^ 18 / 4) 1 / phi0)) with (PI / 2) in P.
  2: { unfold flux. field. unfold phi0, hbar. pose proof PI_RGT_0. lra. }
  rewrite expi_quarter in P. unfold product, sides in P. cbn [combine app fold_right fst snd] in P.
  change (row_of (hs_subs square_sys) 0 0) with 0%nat in P. change (row_of (hs_subs square_sys) 1 0) with 1%nat in P.
  change (row_of (hs_subs square_sys) 2 0) with 2%nat in P. change (row_of (hs_subs square_sys) 3 0) with 3%nat in P.
  unfold loop. transitivity (kmul (coeff mB 0 1) (kmul (coeff mB 1 2) (kmul (coeff mB 2 3) (kmul (coeff mB 3 0) k1)))); [ring|].
  rewrite P. transitivity (kmul (loop m0) (mk 0 1)); [unfold loop; ring|]. rewrite L. cbn. unfold cx_mul, re, mk. cbn [fst snd]. f_equal; ring.
Qed.
