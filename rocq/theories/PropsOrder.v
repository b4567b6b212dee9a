(* C107: the order in which the parts of a model are given does not matter.
   Model: ModelState.v *)
From Verif Require Import Base Scalar Foundation Lattice SystemBuild PropsHamiltonian ModelState ModelProofs PropsModel.

(** The parts a model is made of, and the parts that a call is about.  Site and position modifiers and
    generators are one part: they are applied one after the other. *)
Inductive part := ThePrimitive | TheShape | TheSymmetry | TheWaveVector | TheLeads | TheStructure | TheOnsite | TheHopping.
Definition about {R P Shp Sy Fn} (m : mcall R P Shp Sy Fn) : list part :=
  match m with
  | AddPrimitive _ => [ThePrimitive]
  | AddShape _ => [TheShape]
  | AddSymmetry _ => [TheSymmetry]
  | SetWave _ => [TheWaveVector]
  | AttachLead _ _ => [TheLeads]
  | AddStructMod _ | AddSiteGen _ _ _ | AddHopGen _ _ _ | ClearStructMods => [TheStructure]
  | AddOnsite _ => [TheOnsite]
  | AddHoppingMod _ => [TheHopping]
  | ClearHamMods => [TheOnsite; TheHopping]
  | ClearAllMods => [TheStructure; TheOnsite; TheHopping]
  end.
Definition part_eqb (a b : part) : bool :=
  match a, b with
  | ThePrimitive, ThePrimitive | TheShape, TheShape | TheSymmetry, TheSymmetry | TheWaveVector, TheWaveVector
  | TheLeads, TheLeads | TheStructure, TheStructure | TheOnsite, TheOnsite | TheHopping, TheHopping => true
  | _, _ => false
  end.
Definition concerns {R P Shp Sy Fn} (p : part) (m : mcall R P Shp Sy Fn) : bool := existsb (part_eqb p) (about m).

(** Two lists of calls that say the same about each part, in the same order *)
Definition same_parts {R P Shp Sy Fn} (l l' : list (mcall R P Shp Sy Fn)) : Prop :=
  forall p, filter (concerns p) l = filter (concerns p) l'.

Section Order.
  Context {R : scalar} {P Shp Sy Fn : Type}.
  Variables (padd : P -> P -> P) (peqb : P -> P -> bool) (offset_ok : P -> bool).
  Notation call := (mcall R P Shp Sy Fn).
  Notation cfg := (config R P Shp Sy Fn).
  Definition set (c : cfg) (m : call) : cfg := fst (fst (configure padd peqb offset_ok m c)).
  Definition returns (c : cfg) (m : call) : bool := snd (configure padd peqb offset_ok m c).
  (** Each call with whether it returned *)
  Fixpoint replies (l : list call) (c : cfg) : list (call * bool) :=
    match l with [] => [] | m :: t => (m, returns c m) :: replies t (set c m) end.

  (** The part [p] is the same in two configurations. *)
  Definition agree (p : part) (c c' : cfg) : Prop :=
    c_ndim c = c_ndim c' /\
    match p with
    | ThePrimitive => c_prim c = c_prim c'
    | TheShape => c_shape c = c_shape c' /\ c_offset c = c_offset c'
    | TheSymmetry => c_sym c = c_sym c'
    | TheWaveVector => c_wave c = c_wave c'
    | TheLeads => c_leads c = c_leads c'
    | TheStructure => c_smods c = c_smods c' /\ c_sites c = c_sites c' /\ c_hops c = c_hops c'
    | TheOnsite => c_onsite c = c_onsite c'
    | TheHopping => c_hopping c = c_hopping c'
    end.
  Lemma agree_refl : forall p c, agree p c c.
  Proof using Type. intros p c. split; [reflexivity|]. destruct p; auto. Qed.
  Lemma agree_trans : forall p a b c, agree p a b -> agree p b c -> agree p a c.
  Proof using Type. intros p a b c [A1 A2] [B1 B2]. split; [congruence|]. destruct p; intuition congruence. Qed.
  Lemma agree_sym : forall p a b, agree p a b -> agree p b a.
  Proof using Type. intros p a b [A1 A2]. split; [congruence|]. destruct p; intuition congruence. Qed.
  Lemma agree_all : forall c c', (forall p, agree p c c') -> c = c'.
  Proof using Type.
    intros [a b d e f g h i j k l m] [a' b' d' e' f' g' h' i' j' k' l' m'] A.
    pose proof (A ThePrimitive) as [E0 E1]. pose proof (A TheShape) as (_ & E2 & E3). pose proof (A TheSymmetry) as [_ E4]. pose proof (A TheWaveVector) as [_ E5].
    pose proof (A TheLeads) as [_ E6]. pose proof (A TheStructure) as (_ & E7 & E8 & E9). pose proof (A TheOnsite) as [_ E10]. pose proof (A TheHopping) as [_ E11]. cbn in *. congruence.
  Qed.

  Lemma set_about : forall p c c' m, agree p c c' -> concerns p m = true -> agree p (set c m) (set c' m) /\ returns c m = returns c' m.
  Proof using Type.
    intros p [a b d e f g h i j k l s] [a' b' d' e' f' g' h' i' j' k' l' s'] m [A1 A2] C. unfold set, returns, agree.
    destruct m, p; try discriminate C; cbn in A1, A2; subst; try (destruct A2 as [-> ->]); try (destruct A2 as (-> & -> & ->)); cbn -[primitive_ok register_family];
      repeat match goal with |- context [if ?b then _ else _] => destruct b | |- context [match ?b with Ok _ => _ | Throw => _ | UB => _ end] => destruct b end; cbn; auto.
  Qed.
  Lemma set_other : forall p c m, concerns p m = false -> agree p (set c m) c.
  Proof using Type.
    intros p [a b d e f g h i j k l s] m C. unfold set, agree.
    destruct m, p; try discriminate C; cbn -[primitive_ok register_family];
      repeat match goal with |- context [if ?b then _ else _] => destruct b | |- context [match ?b with Ok _ => _ | Throw => _ | UB => _ end] => destruct b end; cbn; auto.
  Qed.

  Lemma filtered : forall p l c c', agree p c c' ->
    agree p (fold_left set l c) (fold_left set (filter (concerns p) l) c') /\
    filter (fun r => concerns p (fst r)) (replies l c) = replies (filter (concerns p) l) c'.
  Proof using Type.
    intros p. induction l as [|m l IH]; intros c c' A; [split; [exact A|reflexivity]|]. cbn [fold_left filter replies fst].
    destruct (concerns p m) eqn:E.
    - destruct (set_about p c c' m A E) as [A' ER]. cbn [fold_left replies]. rewrite <- ER. destruct (IH _ _ A') as [I1 I2]. split; [exact I1|]. rewrite I2. reflexivity.
    - apply IH. apply agree_trans with c; [apply set_other; exact E|exact A].
  Qed.
  Lemma same_config : forall l l' c, same_parts l l' -> fold_left set l c = fold_left set l' c.
  Proof using Type.
    intros l l' c S. apply agree_all. intros p. apply agree_trans with (fold_left set (filter (concerns p) l) c); [apply filtered, agree_refl|].
    rewrite (S p). apply agree_sym, filtered, agree_refl.
  Qed.
  (** The same calls raise. *)
  Lemma same_replies : forall l l' c p, same_parts l l' ->
    filter (fun r => concerns p (fst r)) (replies l c) = filter (fun r => concerns p (fst r)) (replies l' c).
  Proof using Type. intros l l' c p S. rewrite (proj2 (filtered p l c c (agree_refl p c))), (proj2 (filtered p l' c c (agree_refl p c))), (S p). reflexivity. Qed.
End Order.

(** A model that is only configured: everything built later comes from the final configuration. *)
Lemma after_calls : forall (R : scalar) (P Shp Sy Fn : Type) (B : builders R P Shp Sy Fn) padd peqb ok l c,
  after B padd peqb ok (map (@Call R P Shp Sy Fn) l) c = fresh (fold_left (set padd peqb ok) l c).
Proof.
  intros R P Shp Sy Fn B padd peqb ok l. unfold after, run. induction l as [|m l IH]; intros c; [reflexivity|]. cbn [map fold_left]. rewrite <- IH. f_equal.
  cbn [step]. unfold do_call, set, fresh. cbn [st_cfg st_sys st_ham st_ls st_lh st_over fst snd]. destruct (snd (fst (configure padd peqb ok m c))); reflexivity.
Qed.

(** Reordering the calls so that the ones about the same part stay in order changes neither the
    system, nor the Hamiltonian, nor the leads, nor which calls raise. *)
Theorem C107_order :
  forall (R : scalar) (P Shp Sy Fn : Type) (B : builders R P Shp Sy Fn) padd peqb ok (l l' : list (mcall R P Shp Sy Fn)) c, same_parts l l' ->
  (forall q, answer B padd peqb ok (map (@Call R P Shp Sy Fn) l) c q = answer B padd peqb ok (map (@Call R P Shp Sy Fn) l') c q) /\
  (forall p, filter (fun r => concerns p (fst r)) (replies padd peqb ok l c) = filter (fun r => concerns p (fst r)) (replies padd peqb ok l' c)).
Proof.
  intros R P Shp Sy Fn B padd peqb ok l l' c S. split.
  - intros q. unfold answer. rewrite !after_calls, (same_config padd peqb ok l l' c S). reflexivity.
  - intros p. apply same_replies. exact S.
Qed.

(** The same when questions are asked in between, under the conditions of C20. *)
Definition calls_of {R P Shp Sy Fn} (ops : list (op R P Shp Sy Fn)) : list (mcall R P Shp Sy Fn) :=
  flat_map (fun o => match o with Call m => [m] | Ask _ => [] end) ops.
Theorem C107_asked :
  forall (R : scalar) (P Shp Sy Fn : Type) (B : builders R P Shp Sy Fn) padd peqb ok (ops ops' : list (op R P Shp Sy Fn)) c q,
  leads_never_fail B -> no_override B -> removes_nothing ops -> removes_nothing ops' ->
  all_accepted padd peqb ok ops c -> all_accepted padd peqb ok ops' c -> same_parts (calls_of ops) (calls_of ops') ->
  answer B padd peqb ok ops c q = answer B padd peqb ok ops' c q.
Proof.
  intros R P Shp Sy Fn B padd peqb ok ops ops' c q HL HO HR HR' HA HA' S.
  assert (E : forall o : list (op R P Shp Sy Fn), config_calls o = map (@Call R P Shp Sy Fn) (calls_of o)).
  { induction o as [|[m|x] o IH]; [reflexivity| |]; cbn; [f_equal|]; exact IH. }
  rewrite (C20_order_free_partial R P Shp Sy Fn B padd peqb ok ops c q HL HO HR HA), (C20_order_free_partial R P Shp Sy Fn B padd peqb ok ops' c q HL HO HR' HA').
  rewrite !E. apply C107_order. exact S.
Qed.

(** Example: shape, symmetry, modifiers and a lead in two orders. *)
Definition order_a : list (mcall GI Z nat unit nat) :=
  [AddShape (Shape 1 2%Z); AddSymmetry (Some tt); AddStructMod 3; AddOnsite (HMod 1 false false);
   AttachLead (-1)%Z (Shape 5 0%Z); AddOnsite (HMod 2 false false); SetWave 7%Z].
Definition order_b : list (mcall GI Z nat unit nat) :=
  [SetWave 7%Z; AttachLead (-1)%Z (Shape 5 0%Z); AddOnsite (HMod 1 false false); AddOnsite (HMod 2 false false);
   AddStructMod 3; AddSymmetry (Some tt); AddShape (Shape 1 2%Z)].
Example C107_example : same_parts order_a order_b /\
  toy_answer plain (map (@Call GI Z nat unit nat) order_b) start QHam = OHam _ _ _ _ _ _ (Ret (THam (TSys (I3 1 1 1) 2 (Some 1) 1 1) 7 [1; 2] true)).
Proof. split; [intros []; reflexivity|vm_compute; reflexivity]. Qed.
(** Within a part the order matters. *)
Example C107_within : toy_answer plain [Call (AddOnsite (HMod 1 false false)); Call (AddOnsite (HMod 2 false false))] start QHam
  <> toy_answer plain [Call (AddOnsite (HMod 2 false false)); Call (AddOnsite (HMod 1 false false))] start QHam.
Proof. vm_compute. discriminate. Qed.
