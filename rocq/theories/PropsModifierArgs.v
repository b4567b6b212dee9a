(* C99: a modifier function works on every site or hopping by itself. *)
From Verif Require Import Base ModifierArgs.
From Coq Require Import ZArith.

(** ** Specification *)
Section Spec.
  Context {A : Type}.
  Variables zero one : A.
  (** The value of the formula at orbitals [i], [j] of site [s] *)
  Fixpoint at_site (b : batch A) (p : formula A) (s i j : nat) : A :=
    match p with
    | Val a => a
    | Energy => energies b s i j
    | Coord c | SitesCoord c => coords b c s
    | Eye => if i =? j then one else zero
    | Op f p q => f (at_site b p s i j) (at_site b q s i j)
    end.
  (** Index of the result that belongs to the orbitals *)
  Definition place (b : batch A) (s i j : nat) : list nat := if plain_batch b then [0; s] else [s; i; j].
  Definition pointwise (b : batch A) (p : formula A) (r : nd A) : Prop :=
    forall s i j, s < num b -> i < rows b -> j < cols b -> bget r (place b s i j) = at_site b p s i j.
  (** Names the function must have asked for *)
  Fixpoint asks (req : list nat) (sites : bool) (p : formula A) : Prop :=
    match p with
    | Coord c => In c req
    | SitesCoord c => sites = true /\ c < 3
    | Op _ p q => asks req sites p /\ asks req sites q
    | _ => True
    end.
  Fixpoint has_site (p : formula A) : bool :=
    match p with Energy | Coord _ | SitesCoord _ => true | Op _ p q => has_site p || has_site q | _ => false end.
  Fixpoint has_orbital (p : formula A) : bool :=
    match p with Energy | Eye => true | Op _ p q => has_orbital p || has_orbital q | _ => false end.
End Spec.

(** Full claim: every formula of the documented arguments can be computed, and is computed for every
    site by itself. *)
Definition C99_claim : Prop :=
  forall (A : Type) (zero one : A) (b : batch A) req p, 0 < num b -> 0 < rows b -> 0 < cols b -> asks req true p ->
  exists r, eval zero one b req p = Ok r /\ pointwise zero one b p r.

Section P.
  Context {A : Type}.
  Variables zero one : A.
  Variable b : batch A.
  Hypothesis Hn : 0 < num b.
  Hypothesis Hr : 0 < rows b.
  Hypothesis Hc : 0 < cols b.

  (** Shapes that occur, by whether the axis of the sites and those of the orbitals take part. *)
  Definition shape_of (hs ho : bool) : list nat :=
    if plain_batch b then match hs, ho with
      | false, false => [] | true, false => [num b] | false, true => [1; 1] | true, true => [1; num b] end
    else match hs, ho with
      | false, false => [] | true, false => [num b; 1; 1] | false, true => [rows b; cols b] | true, true => [num b; rows b; cols b] end.

  Lemma join_1 : forall x y r, (x = y \/ x = 1 \/ y = 1) -> 
    (if x =? y then Some (x :: r) else if x =? 1 then Some (y :: r) else if y =? 1 then Some (x :: r) else None)
    = Some ((if x =? 1 then y else x) :: r).
  Proof.
    intros x y r H. destruct (Nat.eqb_spec x y) as [->|N1]; [destruct (Nat.eqb_spec y 1); subst; reflexivity|].
    destruct (Nat.eqb_spec x 1); [reflexivity|]. destruct (Nat.eqb_spec y 1); [reflexivity|]. lia.
  Qed.
  Lemma bshape_shape : forall s1 o1 s2 o2, bshape (shape_of s1 o1) (shape_of s2 o2) = Some (shape_of (s1 || s2) (o1 || o2)).
  Proof.
    intros s1 o1 s2 o2. unfold shape_of, bshape. destruct (plain_batch b); destruct s1, o1, s2, o2; cbn [rev app orb bshape_rev option_map];
      rewrite ?join_1 by auto; cbn [Nat.eqb option_map rev app]; rewrite ?join_1 by auto; cbn [option_map rev app];
      repeat match goal with |- context[if ?x =? 1 then _ else _] => destruct (Nat.eqb_spec x 1) as [->|]; cbn [option_map rev app] end;
      rewrite ?Nat.eqb_refl; try reflexivity; repeat match goal with H : ?x = 1 |- _ => rewrite H in *; clear H end; try reflexivity.
  Qed.

  (** Broadcasting to a larger shape of the family picks the same element. *)
  Lemma clip_place : forall s o s' o' i j k, i < num b -> j < rows b -> k < cols b ->
    rev (clip_rev (rev (shape_of s o)) (rev (rev (clip_rev (rev (shape_of (s || s') (o || o'))) (rev (place b i j k))))))
    = rev (clip_rev (rev (shape_of s o)) (rev (place b i j k))).
  Proof.
    intros s o s' o' i j k Hi Hj Hk. rewrite rev_involutive. f_equal. unfold shape_of, place. destruct (plain_batch b);
      destruct s, o, s', o'; cbn [rev app orb clip_rev]; rewrite ?Nat.eqb_refl; cbn [Nat.eqb]; try reflexivity;
      repeat match goal with |- context[if ?x =? 1 then _ else _] => destruct (Nat.eqb_spec x 1) end; try reflexivity; repeat f_equal; lia.
  Qed.

  Fixpoint orbital_axes (p : formula A) : bool :=
    match p with Energy => negb (plain_batch b) | Eye => true | Op _ p q => orbital_axes p || orbital_axes q | _ => false end.
  Lemma mem_req : forall c req, In c req -> existsb (Nat.eqb c) req = true.
  Proof. intros c req H. apply existsb_exists. exists c. split; [exact H|apply Nat.eqb_refl]. Qed.
  Lemma mem_not : forall c req, ~ In c req -> existsb (Nat.eqb c) req = false.
  Proof.
    intros c req H. destruct (existsb (Nat.eqb c) req) eqn:E; [|reflexivity]. apply existsb_exists in E. destruct E as (x & I & E).
    apply Nat.eqb_eq in E. subst x. contradiction.
  Qed.
  Lemma coordinate_dims : forall req c, plain_batch b = true \/ In c req -> dims (coordinate b req c) = shape_of true false.
  Proof.
    intros req c H. unfold coordinate, site_shape, shape_of. cbn [dims]. destruct (plain_batch b) eqn:E.
    - destruct (existsb _ req); reflexivity.
    - destruct H as [H|H]; [discriminate|]. rewrite (mem_req c req H). reflexivity.
  Qed.
  Lemma site_value : forall (r : nd A) i j k, dims r = shape_of true false -> i < num b -> bget r (place b i j k) = at_ (A := A) r (if plain_batch b then [i] else [i; 0; 0]).
  Proof.
    intros r i j k E Hi. unfold bget. rewrite E. unfold shape_of, place. destruct (plain_batch b); cbn [rev app clip_rev Nat.eqb];
      (destruct (Nat.eqb_spec (num b) 1); [|reflexivity]); replace i with 0 by lia; reflexivity.
  Qed.
  Lemma coordinate_value : forall req c i j k, plain_batch b = true \/ In c req -> i < num b -> bget (coordinate b req c) (place b i j k) = coords b c i.
  Proof.
    intros req c i j k H Hi. rewrite site_value by (auto; apply coordinate_dims; exact H). unfold coordinate. cbn [at_]. destruct (plain_batch b); reflexivity.
  Qed.

  (** Formulas of energies, coordinates, the unit matrix and constants; those of [sites] in
      single-orbital models, or if all three coordinates are asked for as well. *)
  Lemma formula_value : forall req st p, asks req st p -> (st = true -> plain_batch b = true \/ (In 0 req /\ In 1 req /\ In 2 req)) ->
    exists r, eval zero one b req p = Ok r /\ dims r = shape_of (has_site p) (orbital_axes p) /\ pointwise zero one b p r.
  Proof.
    intros req st p HA HS. unfold pointwise. induction p as [a| |c|c| |f p IHp q IHq]; cbn [eval asks has_site orbital_axes at_site] in *.
    - eexists. split; [reflexivity|]. split; [unfold shape_of; destruct (plain_batch b); reflexivity|]. reflexivity.
    - exists (prime_arg b). split; [reflexivity|]. unfold prime_arg, shape_of, place. destruct (plain_batch b) eqn:E.
      + apply andb_true_iff in E. destruct E as [E1 E2]. apply Nat.eqb_eq in E1. apply Nat.eqb_eq in E2. split; [reflexivity|].
        intros i j k Hi Hj Hk. unfold bget. cbn [dims at_ rev app clip_rev nth]. replace j with 0 by lia. replace k with 0 by lia.
        destruct (Nat.eqb_spec (num b) 1); [|reflexivity]. replace i with 0 by lia. reflexivity.
      + split; [reflexivity|]. intros i j k Hi Hj Hk. unfold bget. cbn [dims at_ rev app clip_rev nth].
        repeat f_equal; match goal with |- context[if ?x =? 1 then _ else _] => destruct (Nat.eqb_spec x 1) end; lia.
    - rewrite (mem_req c req HA). eexists. split; [reflexivity|]. split; [apply coordinate_dims; auto|]. intros i j k Hi Hj Hk. apply coordinate_value; auto.
    - destruct HA as (-> & Hc3). specialize (HS eq_refl).
      assert (IN : forall d, d < 3 -> plain_batch b = true \/ In d req) by (intros [|[|[|d]]] Hd; try lia; tauto).
      exists (coordinate b req c). split; [|split; [apply coordinate_dims, IN, Hc3|intros i j k Hi Hj Hk; apply coordinate_value; auto]].
      unfold sites_arg. rewrite !coordinate_dims by (apply IN; lia). destruct (list_eq_dec Nat.eq_dec _ _) as [_|N]; [|congruence].
      destruct c as [|[|[|c]]]; [reflexivity..|lia].
    - exists (eye zero one b). split; [reflexivity|]. unfold eye, shape_of, place. destruct (plain_batch b) eqn:E.
      + apply andb_true_iff in E. destruct E as [E1 E2]. apply Nat.eqb_eq in E1. apply Nat.eqb_eq in E2. rewrite E1, E2. split; [reflexivity|].
        intros i j k Hi Hj Hk. unfold bget. cbn. replace j with 0 by lia. replace k with 0 by lia. reflexivity.
      + split; [reflexivity|]. intros i j k Hi Hj Hk. unfold bget. cbn [dims at_ rev app clip_rev nth].
        repeat match goal with |- context[if ?x =? 1 then _ else _] => destruct (Nat.eqb_spec x 1) end;
          try (assert (j = 0) by lia; subst j); try (assert (k = 0) by lia; subst k); reflexivity.
    - destruct HA as (H1 & H2). destruct (IHp H1) as (u & E1 & D1 & V1). destruct (IHq H2) as (v & E2 & D2 & V2). rewrite E1, E2. cbn [obind].
      unfold bop. rewrite D1, D2, bshape_shape. eexists. split; [reflexivity|]. split; [reflexivity|]. intros i j k Hi Hj Hk.
      unfold bget at 1. cbn [dims at_]. rewrite <- (V1 i j k), <- (V2 i j k) by assumption. f_equal; unfold bget; f_equal.
      + rewrite D1. apply clip_place; assumption.
      + rewrite D2, (orb_comm (has_site p)), (orb_comm (orbital_axes p)). apply clip_place; assumption.
  Qed.
End P.

(** ** What is proved *)
(** Formulas without [sites] in every model, with [sites] in single-orbital models or next to all
    three coordinates. *)
Theorem C99_formula_partial : forall (A : Type) (zero one : A) (b : batch A) req sites p,
  0 < num b -> 0 < rows b -> 0 < cols b -> asks req sites p ->
  (sites = true -> plain_batch b = true \/ (In 0 req /\ In 1 req /\ In 2 req)) ->
  exists r, eval zero one b req p = Ok r /\ pointwise zero one b p r /\
    (* the result is accepted if every site and every orbital has its number *)
    (has_site p = true -> has_orbital p = true \/ plain_batch b = true -> accepted b r = true).
Proof.
  intros A zero one b req sites p Hn Hr Hc HA HS. destruct (formula_value zero one b Hn Hr Hc req sites p HA HS) as (r & E & D & V).
  exists r. split; [exact E|]. split; [exact V|]. intros H1 H2. unfold accepted, nd_size. rewrite D, H1. apply Nat.eqb_eq. unfold shape_of, prime_arg.
  destruct (plain_batch b) eqn:PB; cbn [dims fold_right].
  - destruct (orbital_axes b p); cbn [fold_right]; lia.
  - assert (O : forall q, has_orbital q = true -> orbital_axes b q = true).
    { induction q as [| | | | |f q1 IH1 q2 IH2]; cbn [has_orbital orbital_axes]; rewrite ?PB; auto.
      intros Q. apply orb_true_iff in Q. apply orb_true_iff. tauto. }
    destruct H2 as [H2|H2]; [|discriminate]. rewrite (O p H2). reflexivity.
Qed.
Print Assumptions C99_formula_partial.

(** [sites] with some but not all of x, y, z in a multi-orbital model: an exception. *)
Theorem C99_mixed : forall (A : Type) (zero one : A) (b : batch A) req c, 0 < num b -> plain_batch b = false ->
  (exists u, u < 3 /\ In u req) -> (exists w, w < 3 /\ ~ In w req) -> eval zero one b req (SitesCoord c) = Throw.
Proof.
  intros A zero one b req c Hn PB (u & Hu & Iu) (w & Hw & Iw). cbn [eval]. unfold sites_arg, coordinate, site_shape. cbn [dims]. rewrite PB.
  apply mem_req in Iu. apply mem_not in Iw.
  destruct (existsb (Nat.eqb 0) req) eqn:E0, (existsb (Nat.eqb 1) req) eqn:E1, (existsb (Nat.eqb 2) req) eqn:E2;
    repeat (let Q := fresh in destruct (list_eq_dec Nat.eq_dec _ _) as [Q|Q]; try discriminate Q); try reflexivity; try congruence;
    exfalso; destruct u as [|[|[|u]]]; try lia; destruct w as [|[|[|w]]]; try lia; congruence.
Qed.
Print Assumptions C99_mixed.

(** [sites] alone in a model with [k] orbitals: the coordinates meet the columns of the energies. *)
Theorem C99_sites_alone : forall (A : Type) (zero one : A) (b : batch A) req c f k,
  rows b = k -> cols b = k -> 1 < k -> 0 < num b -> c < 3 -> (forall u, u < 3 -> ~ In u req) ->
  let p := Op f Energy (SitesCoord c) in
  (num b = 1 -> exists r, eval zero one b req p = Ok r /\ pointwise zero one b p r) /\
  (num b = k -> exists r, eval zero one b req p = Ok r /\ dims r = [num b; k; k] /\ accepted b r = true /\
     forall s i j, s < num b -> i < k -> j < k -> at_ r [s; i; j] = f (energies b s i j) (coords b c j)) /\
  (num b <> 1 -> num b <> k -> eval zero one b req p = Throw).
Proof.
  intros A zero one b req c f k Ek Ec Hk Hn Hc HR p.
  assert (PB : plain_batch b = false) by (unfold plain_batch; rewrite Ek; destruct (Nat.eqb_spec k 1); [lia|reflexivity]).
  assert (S : eval zero one b req (SitesCoord c) = Ok (ND [num b] (fun idx => coords b c (nth 0 idx 0)))).
  { cbn [eval]. unfold sites_arg, coordinate. cbn [dims]. rewrite !mem_not by (apply HR; lia).
    destruct (list_eq_dec Nat.eq_dec _ _) as [_|N]; [|congruence]. destruct c as [|[|[|c]]]; [reflexivity..|lia]. }
  assert (E : eval zero one b req p = bop f (ND [num b; k; k] (fun idx => energies b (nth 0 idx 0) (nth 1 idx 0) (nth 2 idx 0))) (ND [num b] (fun idx => coords b c (nth 0 idx 0)))).
  { unfold p. cbn [eval] in *. rewrite S. cbn [obind]. unfold prime_arg. rewrite PB, Ek, Ec. reflexivity. }
  rewrite E. unfold bop, bshape. cbn [dims rev app bshape_rev]. assert (k =? 1 = false) as K1 by (apply Nat.eqb_neq; lia). split; [|split].
  - intros N1. rewrite N1. rewrite K1. cbn [Nat.eqb option_map rev app]. eexists. split; [reflexivity|]. intros s i j Hs Hi Hj. rewrite N1 in Hs. replace s with 0 by lia.
    unfold place. rewrite PB. unfold bget. cbn [dims at_ rev app clip_rev Nat.eqb]. rewrite ?K1. cbn [rev app nth clip_rev Nat.eqb]. rewrite ?K1. reflexivity.
  - intros EN. rewrite EN. rewrite Nat.eqb_refl. cbn [option_map rev app]. eexists. split; [reflexivity|]. split; [reflexivity|]. split.
    + unfold accepted, nd_size, prime_arg. rewrite PB. cbn [dims fold_right]. rewrite Ek, Ec, EN. apply Nat.eqb_refl.
    + intros s i j Hs Hi Hj. cbn [at_]. unfold bget. cbn [dims at_ rev app clip_rev]. rewrite K1. reflexivity.
  - intros N1 Nk. destruct (Nat.eqb_spec k (num b)); [congruence|]. rewrite K1. destruct (Nat.eqb_spec (num b) 1); [congruence|]. reflexivity.
Qed.
Print Assumptions C99_sites_alone.

(** [energy[sub_id == name] = ...] works in single-orbital models and raises in the others. *)
Theorem C99_select : forall (A : Type) (b : batch A) (f : A -> A) same,
  (plain_batch b = true -> exists r, select b f same = Ok r /\ dims r = [num b] /\
     forall s, at_ r [s] = if same then f (energies b s 0 0) else energies b s 0 0) /\
  (plain_batch b = false -> select b f same = Throw).
Proof.
  intros A b f same. unfold select, mask_set, prime_arg, site_shape, leading. split; intros PB; rewrite PB; cbn [dims length firstn].
  - destruct (list_eq_dec Nat.eq_dec [num b] [num b]) as [_|N]; [|congruence]. eexists. split; [reflexivity|]. split; [reflexivity|]. intros s. reflexivity.
  - destruct (list_eq_dec Nat.eq_dec [num b; 1; 1] [num b; rows b; cols b]) as [Q|_]; [|reflexivity].
    injection Q as Q1 Q2. unfold plain_batch in PB. rewrite <- Q1, <- Q2 in PB. discriminate.
Qed.
Print Assumptions C99_select.

(** Two sites at x = 5 and x = 9 with two orbitals each: [energy + sites.x] adds 5 to the first
    column of both sites and 9 to the second. *)
Definition two_by_two : batch Z := Batch 2 2 2 (fun _ _ _ => 0%Z) (fun c s => match c, s with 0, 0 => 5%Z | 0, 1 => 9%Z | _, _ => 0%Z end).
Definition as_list (b : batch Z) (r : outcome (nd Z)) : list (list (list Z)) :=
  match r with Ok r => map (fun s => map (fun i => map (fun j => bget r (place b s i j)) (seq 0 (cols b))) (seq 0 (rows b))) (seq 0 (num b)) | _ => [] end.
Theorem C99_refuted : ~ C99_claim.
Proof.
  intros H. destruct (H Z 0%Z 1%Z two_by_two [] (Op Z.add Energy (SitesCoord 0)) ltac:(cbn; lia) ltac:(cbn; lia) ltac:(cbn; lia) ltac:(cbn; repeat split; lia)) as (r & E & V).
  vm_compute in E. injection E as <-. specialize (V 0 0 1 ltac:(cbn; lia) ltac:(cbn; lia) ltac:(cbn; lia)). vm_compute in V. discriminate.
Qed.
Print Assumptions C99_refuted.
Example C99_example :
  as_list two_by_two (eval 0%Z 1%Z two_by_two [] (Op Z.add Energy (SitesCoord 0))) = [[[5; 9]; [5; 9]]; [[5; 9]; [5; 9]]]%Z /\
  as_list two_by_two (eval 0%Z 1%Z two_by_two [0] (Op Z.add Energy (Op Z.mul (Coord 0) Eye))) = [[[5; 0]; [0; 5]]; [[9; 0]; [0; 9]]]%Z /\
  eval 0%Z 1%Z two_by_two [0] (Op Z.add Energy (SitesCoord 0)) = Throw /\
  as_list two_by_two (eval 0%Z 1%Z two_by_two [0; 1; 2] (Op Z.add Energy (SitesCoord 0))) = [[[5; 5]; [5; 5]]; [[9; 9]; [9; 9]]]%Z.
Proof. vm_compute. repeat split. Qed.
