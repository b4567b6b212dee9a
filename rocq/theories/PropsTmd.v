(* C68: the symmetries of the three-band model of group 6 dichalcogenides. *)
From Coq Require Import Reals Lra Lia ZArith Permutation.
From Verif Require Import Base Rle Blocks Scalar Foundation Lattice LatticeSpec LatticeProofs RegistryProofs FoundationSpec Hamiltonian BulkSpec Cplx
  Materials MaterialsSpec MaterialsProofs GrapheneProofs PropsDeclared.

(** ** Lattices made from hopping energies without names *)
Section Energies.
  Variables (K : scalar) (P : Type) (oo : P -> bool) (order : list (Lattice.family K) -> list (Lattice.family K)).
  Hypothesis Hord : forall l, Permutation (order l) l.

  Definition small_names (l : lattice K P) : Prop := forall n, In n (map fm_name (l_fams l)) -> exists k, n = Anon k /\ (k < length (l_fams l))%nat.
  Lemma energy_step : forall l rel a b (e : mat K), lat_inv K P l -> small_names l -> joinable K P l rel a b (m_rows e) (m_cols e) ->
    exists l' sa sb, run_call oo order (Some l) (AddHoppingEnergy rel a b e) = Some l' /\ lat_inv K P l' /\ small_names l' /\ l_subs l' = l_subs l /\
      In sa (l_subs l) /\ In sb (l_subs l) /\ sb_name sa = a /\ sb_name sb = b /\
      Permutation (all_terms l') (Term rel (sb_uid sa) (sb_uid sb) :: all_terms l).
  Proof.
    intros l rel a b e I SN J.
    assert (OK : snd (call oo order (AddHoppingEnergy rel a b e) l) = true).
    { cbn [call]. apply add_hopping_energy_iff; auto. split; [exact J|]. right. intros C. destruct (SN _ C) as (k & E & L). injection E as <-. lia. }
    cbn [run_call]. destruct (call oo order (AddHoppingEnergy rel a b e) l) as [l' b0] eqn:EC. cbn [snd] in OK. subst b0. cbn [snd fst].
    pose proof (inv_call K P oo order (AddHoppingEnergy rel a b e) l I) as I'. rewrite EC in I'. cbn [fst] in I'.
    exists l'. cbn [call] in EC.
    assert (HOP : forall l1 f l2, lat_inv K P l1 -> small_names l1 -> In f (l_fams l1) -> add_hopping rel a b (fm_name f) l1 = (l2, true) ->
      exists sa sb, small_names l2 /\ l_subs l2 = l_subs l1 /\ In sa (l_subs l1) /\ In sb (l_subs l1) /\ sb_name sa = a /\ sb_name sb = b /\
      Permutation (all_terms l2) (Term rel (sb_uid sa) (sb_uid sb) :: all_terms l1)).
    { intros l1 f l2 I1 S1 Hf EA. unfold add_hopping in EA. destruct (name_eqb a b && eqb3 rel zero3); [discriminate|].
      destruct (find_sub l1 a) as [sa|] eqn:Ea; [|discriminate]. destruct (find_sub l1 b) as [sb|] eqn:Eb; [|discriminate].
      rewrite (find_fam_in K P l1 f I1 Hf) in EA. destruct (_ || _)%bool; [discriminate|]. destruct (existsb _ _); [discriminate|]. injection EA as <-.
      apply find_sub_some in Ea as (Ha & <-). apply find_sub_some in Eb as (Hb & <-). exists sa, sb. repeat split; auto.
      - intros n Hn. cbn [l_fams] in *. rewrite push_term_names in Hn. rewrite map_length. apply S1. exact Hn.
      - unfold all_terms. cbn [l_fams]. apply Permutation_sym. apply push_terms_perm; [apply (li_fnames _ _ _ I1)|]. apply in_map. exact Hf. }
    unfold add_hopping_energy in EC. destruct (find _ (order (l_fams l))) as [f|] eqn:Ef.
    - apply find_some in Ef as (Hf & _). assert (Hin : In f (l_fams l)) by (eapply Permutation_in; [apply Hord|exact Hf]).
      destruct (HOP l f l' I SN Hin EC) as (sa & sb & H). exists sa, sb. tauto.
    - destruct (register_hopping_energy (Anon (length (l_fams l))) e l) as [l1 b1] eqn:ER. destruct b1; [|discriminate].
      pose proof (inv_register K P l _ e l1 true I ER) as I1. unfold register_hopping_energy in ER. cbn [name_eqb] in ER. destruct (negb (hopping_ok e)); [discriminate|].
      destruct (find_fam l (Anon (length (l_fams l)))); [discriminate|]. injection ER as <-.
      assert (S1 : small_names (Lat (l_subs l) (l_fams l ++ [Fam (Anon (length (l_fams l))) e (length (l_fams l)) []]) (l_offset l) (l_min l))).
      { intros n Hn. cbn [l_fams] in *. rewrite map_app, in_app_iff in Hn. rewrite app_length. cbn [length]. destruct Hn as [Hn|[<-|[]]].
        - destruct (SN n Hn) as (k & E & L). exists k. split; [exact E|lia].
        - exists (length (l_fams l)). split; [reflexivity|lia]. }
      destruct (HOP _ (Fam (Anon (length (l_fams l))) e (length (l_fams l)) []) l' I1 S1) as (sa & sb & A & B & C & D & E & F & G);
        [cbn [l_fams]; apply in_app_iff; right; left; reflexivity|exact EC|].
      exists sa, sb. cbn [l_subs] in *. unfold all_terms in G |- *. cbn [l_fams] in G. rewrite flat_map_app in G. cbn in G. rewrite app_nil_r in G. tauto.
  Qed.
  Lemma run_kept : forall cs l l', fold_left (run_call oo order) cs (Some l) = Some l' -> kept oo order cs l = cs /\ fold_left (fun l c => fst (call oo order c l)) cs l = l'.
  Proof.
    induction cs as [|c cs IH]; intros l l' H; [cbn in *; split; [reflexivity|congruence]|]. cbn [fold_left kept run_call] in *.
    destruct (call oo order c l) as [l1 b] eqn:E. cbn [fst snd] in *. destruct b.
    - destruct (IH _ _ H) as [E1 E2]. rewrite E1. split; [reflexivity|exact E2].
    - exfalso. revert H. clear. induction cs; cbn; [discriminate|exact IHcs].
  Qed.
End Energies.

Local Open Scope R_scope.
(** ** Specification *)
(** Turn by 120 degrees about the origin, of positions, of cells, and of the orbitals d_z2, d_xy,
    d_x2-y2; mirror x -> -x. *)
Definition turn_pos (v : vec3) : vec3 := (- (1/2) * vx v - sqrt 3 / 2 * vy v, sqrt 3 / 2 * vx v - 1/2 * vy v, vz v).
Definition turn (x : idx3 * nat) : idx3 * nat := (I3 (- ix (fst x) - iy (fst x)) (ix (fst x)) (iz (fst x)), snd x).
Definition turn_orb (i j : nat) : R :=
  match i, j with
  | 0%nat, 0%nat => 1
  | 1%nat, 1%nat | 2%nat, 2%nat => - (1/2)
  | 1%nat, 2%nat => - (sqrt 3 / 2)
  | 2%nat, 1%nat => sqrt 3 / 2
  | _, _ => 0
  end.
Definition mirror_pos (v : vec3) : vec3 := (- vx v, vy v, vz v).
Definition mirror (x : idx3 * nat) : idx3 * nat := (I3 (- ix (fst x) - iy (fst x)) (iy (fst x)) (iz (fst x)), snd x).
Definition mirror_orb (i : nat) : R := if (i =? 1)%nat then -1 else 1.

(** Matrix element between orbitals [i] and [j] of two sites; the onsite element of a site. *)
Definition element (l : lattice CX vec3) (x : idx3 * nat) (i : nat) (y : idx3 * nat) (j : nat) : CX := bulk complex_type (l_fams l) x i y j.
Definition onsite_at (l : lattice CX vec3) (i j : nat) : CX := match l_subs l with s :: _ => m_at (sb_energy s) i j | [] => k0 end.
(** [U f U^T] *)
Definition turned (f : nat -> nat -> CX) (i j : nat) : CX :=
  ksum (fun k => ksum (fun l => kmul (re (turn_orb i k * turn_orb j l)) (f k l)) (seq 0 3)) (seq 0 3).

(** ** Proof *)
Section Tmd.
  Variables (oo : vec3 -> bool) (order : list (Lattice.family CX) -> list (Lattice.family CX)).
  Hypothesis Hord : forall l, Permutation (order l) l.
  Variables (a eps1 eps2 t0 t1 t2 t11 t12 t22 : R).
  Let m := tmd a eps1 eps2 t0 t1 t2 t11 t12 t22.

  Lemma tmd_sub_ok : onsite_ok (rmat [[eps1; 0; 0]; [0; eps2; 0]; [0; 0; eps2]]) = true.
  Proof.
    apply onsite_ok_spec. unfold rmat. cbn [m_rows m_cols m_at length hd]. split; [reflexivity|]. split; [lia|]. split.
    - intros i Hi. symmetry. apply re_conj.
    - left. intros i j Hj Hi. destruct i as [|[|[|i]]]; try lia; destruct j as [|[|j]]; try lia; reflexivity.
  Qed.
  Definition tmd_sub : sublattice CX vec3 := Sub (Nm 0) (0, 0, 0) (hermitian_view (rmat [[eps1; 0; 0]; [0; eps2; 0]; [0; 0; eps2]])) 0 0.
  Lemma tmd_run : exists l, run oo order (mt_calls m) = Some l /\ l_subs l = [tmd_sub].
  Proof.
    unfold m, tmd, mt_calls, run. cbn [fold_left].
    assert (E0 : @run_call CX vec3 oo order (Some new_lattice) (AddSublattice (Nm 0) (0, 0, 0) (rmat [[eps1; 0; 0]; [0; eps2; 0]; [0; 0; eps2]])) = Some (Lat [tmd_sub] [] None 1)).
    { cbn [run_call call]. unfold add_sublattice. rewrite tmd_sub_ok. reflexivity. }
    rewrite E0.
    assert (I0 : lat_inv CX vec3 (Lat [tmd_sub] [] None 1)).
    { pose proof (inv_call CX vec3 oo order (AddSublattice (Nm 0) (0, 0, 0) (rmat [[eps1; 0; 0]; [0; eps2; 0]; [0; 0; eps2]])) new_lattice (inv_new _ _)) as X.
      cbn [run_call] in E0. destruct (call oo order _ new_lattice) as [l b]. cbn in E0, X. destruct b; [|discriminate]. congruence. }
    assert (S0 : small_names CX vec3 (Lat [tmd_sub] [] None 1)) by (intros n []).
    assert (J : forall l rel (e : list (list R)), l_subs l = [tmd_sub] -> rel <> zero3 -> length e = 3%nat -> length (hd [] e) = 3%nat -> 
       (forall t, In t (all_terms l) -> ~ same_bond (Term rel 0 0) t) -> joinable CX vec3 l rel (Nm 0) (Nm 0) (m_rows (rmat e)) (m_cols (rmat e))).
    { intros l rel e Es Hz L1 L2 HB. exists tmd_sub, tmd_sub. rewrite Es. cbn [rmat m_rows m_cols]. rewrite L1, L2. repeat split; auto; try (left; reflexivity). intros [_ C]. contradiction. }
    destruct (energy_step CX vec3 oo order Hord (Lat [tmd_sub] [] None 1) (I3 1 0 0) (Nm 0) (Nm 0) (rmat (tmd_h1 t0 t1 t2 t11 t12 t22)) I0 S0) as (l1 & sa & sb & E1 & I1 & S1 & Es1 & A1 & B1 & _ & _ & P1).
    { apply J; try reflexivity; [discriminate|]. intros t []. }
    match type of E1 with ?u = _ => match goal with |- context [run_call ?o1 ?o2 (Some ?l) ?c] => change (run_call o1 o2 (Some l) c) with u end end. rewrite E1. cbn [l_subs] in *. destruct A1 as [<-|[]]. destruct B1 as [<-|[]]. cbn [sb_uid tmd_sub all_terms l_fams flat_map] in P1.
    destruct (energy_step CX vec3 oo order Hord l1 (I3 0 (-1) 0) (Nm 0) (Nm 0) (rmat (tmd_h2 t0 t1 t2 t11 t12 t22)) I1 S1) as (l2 & sa & sb & E2 & I2 & S2 & Es2 & A2 & B2 & _ & _ & P2).
    { apply J; try reflexivity; [exact Es1|discriminate|]. intros t Ht. eapply Permutation_in in Ht; [|exact P1]. destruct Ht as [<-|[]]. intros [C|C]; discriminate C. }
    match type of E2 with ?u = _ => match goal with |- context [run_call ?o1 ?o2 (Some ?l) ?c] => change (run_call o1 o2 (Some l) c) with u end end. rewrite E2. rewrite Es1 in A2, B2. destruct A2 as [<-|[]]. destruct B2 as [<-|[]]. cbn [sb_uid tmd_sub] in P2.
    destruct (energy_step CX vec3 oo order Hord l2 (I3 1 (-1) 0) (Nm 0) (Nm 0) (rmat (tmd_h3 t0 t1 t2 t11 t12 t22)) I2 S2) as (l3 & sa & sb & E3 & I3' & S3 & Es3 & _).
    { apply J; try reflexivity; [congruence|discriminate|]. intros t Ht. eapply Permutation_in in Ht; [|exact P2]. destruct Ht as [<-|Ht]; [intros [C|C]; discriminate C|].
      eapply Permutation_in in Ht; [|exact P1]. destruct Ht as [<-|[]]. intros [C|C]; discriminate C. }
    match type of E3 with ?u = _ => match goal with |- context [run_call ?o1 ?o2 (Some ?l) ?c] => change (run_call o1 o2 (Some l) c) with u end end. rewrite E3. exists l3. split; [reflexivity|]. congruence.
  Qed.

  (** The element as a function of the difference of the cells. *)
  Definition at3 (h : list (list R)) (i j : nat) : R := nth j (nth i h []) 0.
  Definition tmd_el (p q : Z) (i j : nat) : R :=
    let h1 := at3 (tmd_h1 t0 t1 t2 t11 t12 t22) in let h2 := at3 (tmd_h2 t0 t1 t2 t11 t12 t22) in let h3 := at3 (tmd_h3 t0 t1 t2 t11 t12 t22) in
    let is p' q' := ((p =? p') && (q =? q'))%Z in
    if is 1%Z 0%Z then h1 i j else if is (-1)%Z 0%Z then h1 j i else
    if is 0%Z (-1)%Z then h2 i j else if is 0%Z 1%Z then h2 j i else
    if is 1%Z (-1)%Z then h3 i j else if is (-1)%Z 1%Z then h3 j i else 0.
  Lemma leads_1 : forall rel x y, leads_to (Term rel 0 0) x y = ((snd x =? 0) && (snd y =? 0))%nat && ((ix (fst y) - ix (fst x) =? ix rel) && (iy (fst y) - iy (fst x) =? iy rel) && (iz (fst y) - iz (fst x) =? iz rel))%Z.
  Proof. intros. rewrite leads_goes. reflexivity. Qed.
  Lemma tmd_element : forall l x y i j, run oo order (mt_calls m) = Some l -> l_subs l = [tmd_sub] -> site2 1 x -> site2 1 y -> (i < 3)%nat -> (j < 3)%nat ->
    element l x i y j = re (tmd_el (ix (fst y) - ix (fst x)) (iy (fst y) - iy (fst x)) i j).
  Proof.
    intros l x y i j Er Es [Zx Hx] [Zy Hy] Hi Hj. unfold run in Er. destruct (run_kept CX vec3 oo order _ _ _ Er) as [EK EL].
    pose proof (C67 CX vec3 oo order (mt_calls m) Hord) as C. cbv zeta in C. rewrite EK in C. unfold calls in C. rewrite EL in C.
    destruct C as (_ & _ & _ & C). { intros c Hc. cbn in Hc. destruct Hc as [<-|[<-|[<-|[<-|[]]]]]; exact I. }
    assert (O : forall z k, site2 1 z -> (k < 3)%nat -> orbital l z k).
    { intros z k [_ Hz] Hk. exists tmd_sub. rewrite Es. split; [left; reflexivity|]. split; [cbn; lia|exact Hk]. }
    destruct (C complex_type x i y j (O x i (conj Zx Hx) Hi) (O y j (conj Zy Hy) Hj)) as [_ CB]. unfold element. rewrite CB. clear CB C O Er EK EL.
    unfold declared, m, tmd, mt_calls. cbn [ksum fold_right bond_of].
    change (uid_of _ (Nm 0)) with (Some 0%nat).
    cbv beta iota. rewrite !leads_1, Zx, Zy. replace (snd x =? 0)%nat with true by (symmetry; apply Nat.eqb_eq; lia). replace (snd y =? 0)%nat with true by (symmetry; apply Nat.eqb_eq; lia).
    cbn [andb ix iy iz nt_cast nt_conj complex_type Z.sub Z.add Z.opp Z.eqb]. rewrite !Bool.andb_true_r.
    unfold tmd_el. set (p := (ix (fst y) - ix (fst x))%Z). set (q := (iy (fst y) - iy (fst x))%Z).
    replace (ix (fst x) - ix (fst y))%Z with (- p)%Z by (unfold p; lia). replace (iy (fst x) - iy (fst y))%Z with (- q)%Z by (unfold q; lia).
    change (m_at (rmat ?h) ?u ?v) with (re (at3 h u v)).
    generalize (at3 (tmd_h1 t0 t1 t2 t11 t12 t22)) as h1. generalize (at3 (tmd_h2 t0 t1 t2 t11 t12 t22)) as h2. generalize (at3 (tmd_h3 t0 t1 t2 t11 t12 t22)) as h3. intros h3 h2 h1.
    repeat match goal with |- context [(?u =? ?v)%Z] => destruct (Z.eqb_spec u v) end; try lia; cbn; unfold cx_add, cx_conj, re; cbn; f_equal; ring.
  Qed.
End Tmd.

Section Symmetries.
  Variables (t0 t1 t2 t11 t12 t22 : R).
  Notation el := (tmd_el t0 t1 t2 t11 t12 t22).
  Definition s3 (f : nat -> R) : R := f 0%nat + (f 1%nat + f 2%nat).
  Lemma s3_0 : forall f, (forall k, f k = 0) -> s3 f = 0.
  Proof. intros f H. unfold s3. rewrite !H. ring. Qed.
  Definition six (p q : Z) : Prop := In (p, q) [(1, 0); (-1, 0); (0, -1); (0, 1); (1, -1); (-1, 1)]%Z.
  Lemma six_dec : forall p q, six p q \/ ~ six p q.
  Proof. intros p q. unfold six. destruct (in_dec (fun u v : Z * Z => ltac:(decide equality; apply Z.eq_dec)) (p, q) [(1, 0); (-1, 0); (0, -1); (0, 1); (1, -1); (-1, 1)]%Z); auto. Qed.
  Lemma el_none : forall p q i j, ~ six p q -> el p q i j = 0.
  Proof.
    intros p q i j H. unfold tmd_el. cbv zeta.
    repeat match goal with |- context [((?u =? ?v) && (?w =? ?z))%Z] => let E := fresh "E" in destruct ((u =? v) && (w =? z))%Z eqn:E; [exfalso; apply H; apply andb_true_iff in E as (F1 & F2); apply Z.eqb_eq in F1, F2; subst; unfold six; cbn; tauto|] end. reflexivity.
  Qed.
  Lemma el_turn : forall p q i j, (i < 3)%nat -> (j < 3)%nat ->
    el (- p - q) p i j = s3 (fun k => s3 (fun l => turn_orb i k * turn_orb j l * el p q k l)).
  Proof.
    intros p q i j Hi Hj. assert (S : forall t, sqrt 3 * sqrt 3 * t = 3 * t) by (intros t; rewrite sqrt3_sq; reflexivity).
    assert (S3 : forall t, sqrt 3 * sqrt 3 * sqrt 3 * t = 3 * (sqrt 3 * t)) by (intros t; rewrite sqrt3_sq; ring).
    pose proof (S t0); pose proof (S t1); pose proof (S t2); pose proof (S t11); pose proof (S t12); pose proof (S t22).
    pose proof (S3 t0); pose proof (S3 t1); pose proof (S3 t2); pose proof (S3 t11); pose proof (S3 t12); pose proof (S3 t22). clear S S3.
    destruct (six_dec p q) as [H'|H'].
    - unfold six in H'. cbn [In] in H'. unfold tmd_el, tmd_h1, tmd_h2, tmd_h3, at3.
      repeat (destruct H' as [H'|H']; [injection H' as <- <-; cbn [Z.opp Z.sub Z.add Z.pos_sub Z.eqb Pos.eqb andb];
        destruct i as [|[|[|i]]]; try lia; destruct j as [|[|[|j]]]; try lia; unfold s3; cbn [turn_orb nth]; lra|]). destruct H'.
    - rewrite el_none. { symmetry. apply s3_0. intros k. apply s3_0. intros l. rewrite el_none by exact H'. ring. }
      intros C. apply H'. unfold six in *. cbn [In] in *. repeat (destruct C as [C|C]; [injection C as C1 C2; assert (p = p) by reflexivity; (left; f_equal; lia) || (right; left; f_equal; lia) || (do 2 right; left; f_equal; lia) || (do 3 right; left; f_equal; lia) || (do 4 right; left; f_equal; lia) || (do 5 right; left; f_equal; lia)|]). destruct C.
  Qed.
  Lemma el_mirror : forall p q i j, (i < 3)%nat -> (j < 3)%nat -> el (- p - q) q i j = mirror_orb i * mirror_orb j * el p q i j.
  Proof.
    intros p q i j Hi Hj. destruct (six_dec p q) as [H|H].
    - unfold six in H. cbn [In] in H. unfold tmd_el, tmd_h1, tmd_h2, tmd_h3, at3.
      repeat (destruct H as [H|H]; [injection H as <- <-; cbn [Z.opp Z.sub Z.add Z.pos_sub Z.eqb Pos.eqb andb];
        destruct i as [|[|[|i]]]; try lia; destruct j as [|[|[|j]]]; try lia; unfold mirror_orb; cbn [Nat.eqb nth]; field|]). destruct H.
    - rewrite !el_none; [ring|exact H|].
      intros C. apply H. unfold six in *. cbn [In] in *. repeat (destruct C as [C|C]; [injection C as C1 C2; assert (p = p) by reflexivity; (left; f_equal; lia) || (right; left; f_equal; lia) || (do 2 right; left; f_equal; lia) || (do 3 right; left; f_equal; lia) || (do 4 right; left; f_equal; lia) || (do 5 right; left; f_equal; lia)|]). destruct C.
  Qed.
End Symmetries.

Lemma triple : forall x x' y y' z z' : R, x = x' -> y = y' -> z = z' -> (x, y, z) = (x', y', z').
Proof. intros; subst; reflexivity. Qed.
Lemma re_sum3 : forall f : nat -> R, ksum (fun k => re (f k)) (seq 0 3) = re (s3 f).
Proof. intros f. cbn. unfold cx_add, re, s3. cbn. f_equal; ring. Qed.
Lemma turned_re : forall (f : nat -> nat -> R) i j, turned (fun k l => re (f k l)) i j = re (s3 (fun k => s3 (fun l => turn_orb i k * turn_orb j l * f k l))).
Proof.
  intros f i j. unfold turned. rewrite <- re_sum3. apply ksum_ext. intros k _. rewrite <- re_sum3. apply ksum_ext. intros l _. apply re_mul.
Qed.

(** For all energies and whatever families the lattice shares: turning the crystal by 120 degrees
    about a metal atom together with the orbitals changes nothing, and neither does the mirror. *)
Theorem C68 : forall offset_ok order a eps1 eps2 t0 t1 t2 t11 t12 t22, (forall fs, Permutation (order fs) fs) ->
  let m := tmd a eps1 eps2 t0 t1 t2 t11 t12 t22 in
  exists l, run offset_ok order (mt_calls m) = Some l /\ length (l_subs l) = 1%nat /\
    forall x y i j, site2 1 x -> site2 1 y -> (i < 3)%nat -> (j < 3)%nat ->
      atom m l (turn x) = turn_pos (atom m l x) /\ atom m l (mirror x) = mirror_pos (atom m l x) /\
      element l (turn x) i (turn y) j = turned (fun k n => element l x k y n) i j /\
      element l (mirror x) i (mirror y) j = kmul (re (mirror_orb i * mirror_orb j)) (element l x i y j) /\
      onsite_at l i j = turned (onsite_at l) i j /\ onsite_at l i j = kmul (re (mirror_orb i * mirror_orb j)) (onsite_at l i j).
Proof.
  intros oo order a eps1 eps2 t0 t1 t2 t11 t12 t22 Hord m.
  destruct (tmd_run oo order Hord a eps1 eps2 t0 t1 t2 t11 t12 t22) as (l & Er & Es). exists l. split; [exact Er|]. split; [rewrite Es; reflexivity|].
  intros x y i j Hx Hy Hi Hj.
  assert (Tx : forall z, site2 1 z -> site2 1 (turn z) /\ site2 1 (mirror z)) by (intros z [A B]; repeat split; assumption).
  destruct (Tx x Hx) as [Hx1 Hx2]. destruct (Tx y Hy) as [Hy1 Hy2].
  assert (AT : forall z, site2 1 z -> atom m l z = (a * (IZR (ix (fst z)) + 1/2 * IZR (iy (fst z))), a * (sqrt 3 / 2 * IZR (iy (fst z))), 0)).
  { intros z [Z1 Z2]. unfold atom. rewrite Es. replace (snd z) with 0%nat by lia. cbn [find tmd_sub sb_uid Nat.eqb sb_pos].
    unfold corner, m, tmd, mt_vectors, vadd, vscale, vx, vy, vz, v0. cbn [nth fst snd]. apply triple; field. }
  assert (OS : forall u v, (u < 3)%nat -> (v < 3)%nat -> onsite_at l u v = re (if (u =? v)%nat then if (u =? 0)%nat then eps1 else eps2 else 0)).
  { intros u v Hu Hv. unfold onsite_at. rewrite Es. destruct u as [|[|[|u]]]; try lia; destruct v as [|[|[|v]]]; try lia; cbn; unfold cx_conj, re; cbn; f_equal; ring. }
  split; [|split; [|split; [|split; [|split]]]].
  - rewrite !AT by assumption. unfold turn, turn_pos, vx, vy, vz. cbn [fst snd ix iy]. rewrite minus_IZR, opp_IZR. assert (S : forall t, sqrt 3 * sqrt 3 * t = 3 * t) by (intros t; rewrite sqrt3_sq; reflexivity). pose proof (S (a * IZR (iy (fst x)))). apply triple; [lra|field|reflexivity].
  - rewrite !AT by assumption. unfold mirror, mirror_pos, vx, vy, vz. cbn [fst snd ix iy]. rewrite minus_IZR, opp_IZR. apply triple; field.
  - rewrite (tmd_element oo order Hord _ _ _ _ _ _ _ _ _ l (turn x) (turn y) i j Er Es) by assumption.
    cbn [turn fst snd ix iy].
    replace (- ix (fst y) - iy (fst y) - (- ix (fst x) - iy (fst x)))%Z with (- (ix (fst y) - ix (fst x)) - (iy (fst y) - iy (fst x)))%Z by lia.
    rewrite el_turn by assumption. rewrite <- turned_re. unfold turned. apply ksum_ext. intros k Hk. apply in_seq in Hk. apply ksum_ext. intros n Hn. apply in_seq in Hn.
    rewrite <- (tmd_element oo order Hord _ _ _ _ _ _ _ _ _ l x y k n Er Es) by (assumption || lia). reflexivity.
  - rewrite (tmd_element oo order Hord _ _ _ _ _ _ _ _ _ l (mirror x) (mirror y) i j Er Es), (tmd_element oo order Hord _ _ _ _ _ _ _ _ _ l x y i j Er Es) by assumption.
    cbn [mirror fst snd ix iy].
    replace (- ix (fst y) - iy (fst y) - (- ix (fst x) - iy (fst x)))%Z with (- (ix (fst y) - ix (fst x)) - (iy (fst y) - iy (fst x)))%Z by lia.
    rewrite el_mirror by assumption. symmetry. apply re_mul.
  - transitivity (turned (fun u v => re (if (u =? v)%nat then if (u =? 0)%nat then eps1 else eps2 else 0)) i j).
    + rewrite OS by assumption. rewrite turned_re. f_equal. pose proof sqrt3_sq as S. assert (S2 : sqrt 3 * sqrt 3 * eps2 = 3 * eps2) by (rewrite S; reflexivity).
      destruct i as [|[|[|i]]]; try lia; destruct j as [|[|[|j]]]; try lia; unfold s3; cbn [turn_orb Nat.eqb]; lra.
    + unfold turned. apply ksum_ext. intros k Hk. apply in_seq in Hk. apply ksum_ext. intros n Hn. apply in_seq in Hn. rewrite OS by lia. reflexivity.
  - rewrite OS by assumption. rewrite re_mul. f_equal. destruct i as [|[|[|i]]]; try lia; destruct j as [|[|[|j]]]; try lia; unfold mirror_orb; cbn [Nat.eqb]; ring.
Qed.
Print Assumptions C68.

(** The turn and the mirror are what they are called: the turn is a rotation, orbitals included,
    of order three. *)
Theorem C68_rotation : (forall i j, (i < 3)%nat -> (j < 3)%nat -> s3 (fun k => turn_orb i k * turn_orb j k) = if (i =? j)%nat then 1 else 0) /\
  (forall i j, (i < 3)%nat -> (j < 3)%nat -> s3 (fun k => turn_orb i k * s3 (fun l => turn_orb k l * turn_orb l j)) = if (i =? j)%nat then 1 else 0) /\
  (forall v, dist2 v0 (turn_pos v) = dist2 v0 v) /\ (forall x, turn (turn (turn x)) = x) /\ (forall x, mirror (mirror x) = x).
Proof.
  pose proof sqrt3_sq as S. repeat split.
  - intros i j Hi Hj. destruct i as [|[|[|i]]]; try lia; destruct j as [|[|[|j]]]; try lia; unfold s3; cbn [turn_orb Nat.eqb]; lra.
  - assert (S3 : sqrt 3 * sqrt 3 * sqrt 3 = 3 * sqrt 3) by (rewrite S; reflexivity).
    intros i j Hi Hj. destruct i as [|[|[|i]]]; try lia; destruct j as [|[|[|j]]]; try lia; unfold s3; cbn [turn_orb Nat.eqb]; lra.
  - intros v. unfold dist2, turn_pos, v0, vx, vy, vz. cbn [fst snd]. destruct v as [[u w] z]. cbn [fst snd]. nra.
  - intros [[p q r] s]. unfold turn. cbn [fst snd ix iy iz]. f_equal. f_equal; lia.
  - intros [[p q r] s]. unfold mirror. cbn [fst snd ix iy iz]. f_equal. f_equal; lia.
Qed.
Print Assumptions C68_rotation.

(** The orbitals do have to be turned with the crystal: the first element of the second row changes
    from [t1] to [-1/2 t1 - sqrt 3 / 2 t2] in the direction turned by 120 degrees. *)
Example C68_example : forall oo order, (forall fs, Permutation (order fs) fs) ->
  exists l, run oo order (mt_calls (tmd 1 0 0 0 1 0 0 0 0)) = Some l /\
    element l (I3 0 0 0, 0%nat) 1 (I3 1 0 0, 0%nat) 0 = re 1 /\ element l (turn (I3 0 0 0, 0%nat)) 1 (turn (I3 1 0 0, 0%nat)) 0 = re (- (1/2)).
Proof.
  intros oo order Hord. destruct (tmd_run oo order Hord 1 0 0 0 1 0 0 0 0) as (l & Er & Es). exists l. split; [exact Er|].
  split; (rewrite (tmd_element oo order Hord 1 0 0 0 1 0 0 0 0 l _ _ _ _ Er Es); [|repeat split; cbn; lia|repeat split; cbn; lia|lia|lia]); f_equal; cbn; lra.
Qed.
