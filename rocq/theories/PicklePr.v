(* Round trips of the pickled state *)
From Coq Require Import String Permutation.
From Verif Require Import Base Rle RleProofs Blocks BlocksProofs Foundation Scalar Lattice LatticeProofs Registry Pickle.
Local Open Scope list_scope.

Lemma oseq_map : forall {A B} (g : A -> B) (f : B -> outcome A) l,
  (forall a, f (g a) = Ok a) -> osequence f (map g l) = Ok l.
Proof.
  intros A B g f l H. induction l as [|a l IH]; [reflexivity|]. cbn. rewrite H. cbn. rewrite IH. reflexivity.
Qed.

Section RT.
  Variable R : scalar.
  Variable F : Type.
  Variable zero : cart F.
  Variable offset_ok : list (cart F) -> cart F -> bool.

  Lemma as_nat_vnat : forall n, as_nat R F (vnat R F n) = Ok n.
  Proof.
    intros. unfold as_nat, vnat. destruct (Z.ltb_spec (Z.of_nat n) 0); [lia|]. rewrite Nat2Z.id. reflexivity.
  Qed.

  Lemma sub_rt : forall s, omap (fun f => f (sb_name s)) (sub_set R F (sub_get R F s)) = Ok s.
  Proof.
    intros [n p e u a]. unfold sub_set, sub_get, as_obj, field, item. cbn -[as_nat].
    rewrite !as_nat_vnat. reflexivity.
  Qed.
  Lemma sub_rt' : forall s, exists f, sub_set R F (sub_get R F s) = Ok f /\ f (sb_name s) = s.
  Proof.
    intros s. pose proof (sub_rt s) as H. destruct (sub_set R F (sub_get R F s)) as [f| |]; try discriminate.
    exists f. split; [reflexivity|]. cbn in H. congruence.
  Qed.

  Lemma term_rt : forall t, term_set R F (term_get R F t) = Ok t.
  Proof.
    intros [r a b]. unfold term_set, term_get, as_obj, field, item. cbn -[as_nat].
    rewrite !as_nat_vnat. reflexivity.
  Qed.

  Lemma fam_rt' : forall s, exists f, fam_set R F (fam_get R F s) = Ok f /\ f (fm_name s) = s.
  Proof.
    intros [n e i ts]. unfold fam_set, fam_get, as_obj, field, item. cbn -[as_nat as_seq].
    rewrite !as_nat_vnat. cbn. rewrite (oseq_map _ _ _ term_rt). cbn. eexists. split; [reflexivity|]. reflexivity.
  Qed.

  Lemma named_rt : forall {A} (nm : A -> name) (get : A -> pv R F) (set : pv R F -> outcome (name -> A)) l,
    (forall a, exists f, set (get a) = Ok f /\ f (nm a) = a) ->
    exists m, as_map R F set (VMap R F (map (fun a => (nm a, get a)) l)) = Ok m /\ named m = l.
  Proof.
    intros A nm get set l H. cbn. induction l as [|a l IH].
    - exists []. split; reflexivity.
    - destruct (H a) as (f & E & Ef). destruct IH as (m & Em & En).
      exists ((nm a, f) :: m). split.
      + cbn. rewrite E. cbn. rewrite Em. reflexivity.
      + unfold named in *. cbn [map fst snd]. rewrite Ef, En. reflexivity.
  Qed.

  Local Ltac crush := repeat match goal with |- context [match ?x with _ => _ end] => destruct x end; reflexivity.
  Lemma offset_add_hopping : forall rel a b n (l : lattice R (cart F)), l_offset (fst (add_hopping rel a b n l)) = l_offset l.
  Proof. intros. unfold add_hopping. crush. Qed.
  Lemma offset_register : forall n e (l : lattice R (cart F)), l_offset (fst (register_hopping_energy n e l)) = l_offset l.
  Proof. intros. unfold register_hopping_energy. crush. Qed.
  Lemma offset_add_energy : forall order rel a b e (l : lattice R (cart F)),
    l_offset (fst (add_hopping_energy order rel a b e l)) = l_offset l.
  Proof.
    intros. unfold add_hopping_energy.
    repeat match goal with |- context [match find ?p ?x with _ => _ end] => destruct (find p x) end;
      try apply offset_add_hopping.
    match goal with |- context [register_hopping_energy ?n ?e l] =>
      pose proof (offset_register n e l) as H; destruct (register_hopping_energy n e l) as [l' [|]] end; cbn in H.
    - rewrite offset_add_hopping. exact H.
    - exact H.
  Qed.

  (** Whatever was set passed the check. *)
  Lemma offset_calls_from : forall ok order (cs : list (lcall R (cart F))) l,
    (forall p, l_offset l = Some p -> ok p = true) ->
    forall p, l_offset (fold_left (fun l c => fst (call ok order c l)) cs l) = Some p -> ok p = true.
  Proof.
    intros ok order. induction cs as [|c cs IH]; intros l H p; [apply H|]. cbn [fold_left]. apply IH.
    clear p IH cs. intros p. destruct c; cbn [call].
    - replace (l_offset (fst (add_sublattice n p0 e l))) with (l_offset l) by (symmetry; unfold add_sublattice; crush). apply H.
    - replace (l_offset (fst (add_alias n orig p0 l))) with (l_offset l) by (symmetry; unfold add_alias; crush). apply H.
    - rewrite offset_register. apply H.
    - rewrite offset_add_hopping. apply H.
    - rewrite offset_add_energy. apply H.
    - unfold set_offset. destruct (ok p0) eqn:E; cbn; [|apply H]. intros [= <-]. exact E.
    - cbn. apply H.
  Qed.

  Lemma lattice_rt : forall vs l osub ofam,
    (forall p, l_offset l = Some p -> offset_ok vs p = true) -> offset_ok vs zero = true ->
    exists l', lattice_set R F offset_ok (lattice_get R F zero osub ofam (VLat R F vs l)) = Ok l' /\
      vl_vectors R F l' = vs /\ l_subs (vl_lat R F l') = osub /\ l_fams (vl_lat R F l') = ofam /\
      get_offset R F zero l' = get_offset R F zero (VLat R F vs l) /\ l_min (vl_lat R F l') = l_min l.
  Proof.
    intros vs l osub ofam Ho Hz.
    destruct (named_rt _ _ _ osub sub_rt') as (ms & Ems & Ens).
    destruct (named_rt _ _ _ ofam fam_rt') as (mf & Emf & Enf).
    assert (Hg : offset_ok vs (get_offset R F zero (VLat R F vs l)) = true).
    { unfold get_offset. cbn. destruct (l_offset l); [now apply Ho|exact Hz]. }
    unfold lattice_set, lattice_get, as_obj, field, item. cbn -[as_map as_seq get_offset].
    cbn [as_seq]. rewrite (oseq_map (VPos R F) (as_pos R F) vs) by reflexivity. cbn -[as_map get_offset].
    rewrite Ems. cbn -[as_map get_offset]. rewrite Emf. cbn -[get_offset]. rewrite Hg. cbn -[get_offset].
    eexists. split; [reflexivity|]. cbn -[get_offset]. repeat split; auto.
  Qed.

  Lemma reg_rt : forall c r, reg_set R F c (reg_get R F c r) = Ok r.
  Proof.
    intros c [e n]. unfold reg_set, reg_get, as_obj, field, item. rewrite String.eqb_refl. cbn.
    rewrite (oseq_map (VMat R F) (as_mat R F) e) by reflexivity. cbn.
    rewrite (oseq_map (VStr R F) (as_str R F) n) by reflexivity. reflexivity.
  Qed.
  Lemma pos_rt : forall a, pos_set R F (pos_get R F a) = Ok a.
  Proof. intros [x y z]. reflexivity. Qed.
  Lemma rle_rt : forall a, rle_set R F (rle_get R F a) = Ok a.
  Proof. intros a. unfold rle_set, rle_get, as_obj, field, item. cbn. apply rle_roundtrip. Qed.
  Lemma blocks_rt : forall h, blocks_set R F (blocks_get R F h) = Ok h.
  Proof.
    intros [h m]. unfold blocks_set, blocks_get, as_obj, field, item. cbn -[as_nat as_seq as_map hb_serialize hb_deserialize].
    rewrite as_nat_vnat. cbn [obind as_seq nb_blocks].
    rewrite (oseq_map (fun p => VSeq R F [VInts R F (fst p); VInts R F (snd p)]) (as_pair R F (as_ints R F)))
      by (intros [a b]; reflexivity).
    cbn -[as_nat as_seq hb_serialize hb_deserialize].
    rewrite (oseq_map (fun p : name * nat => (fst p, vnat R F (snd p)))
               (fun p => omap (pair (fst p)) (as_nat R F (snd p))) m)
      by (intros [a b]; cbn [fst snd]; rewrite as_nat_vnat; reflexivity).
    cbn -[hb_serialize hb_deserialize]. rewrite hb_roundtrip. reflexivity.
  Qed.
  Lemma boundary_rt : forall h, boundary_set R F (boundary_get R F h) = Ok h.
  Proof.
    intros [h s]. unfold boundary_set, boundary_get, as_obj. cbn -[blocks_set blocks_get].
    rewrite blocks_rt. reflexivity.
  Qed.
  Lemma system_rt : forall s, system_set R F offset_ok (system_get R F s) = Ok s.
  Proof.
    intros [a b p c h bs]. unfold system_set, system_get, as_obj, field, item, contains.
    cbn -[reg_set reg_get pos_set pos_get rle_set rle_get blocks_set blocks_get as_seq boundary_set boundary_get].
    rewrite !reg_rt. cbn -[pos_set pos_get rle_set rle_get blocks_set blocks_get as_seq boundary_set boundary_get].
    rewrite pos_rt. cbn -[rle_set rle_get blocks_set blocks_get as_seq boundary_set boundary_get].
    rewrite rle_rt. cbn -[blocks_set blocks_get as_seq boundary_set boundary_get].
    rewrite blocks_rt. cbn -[boundary_set boundary_get].
    rewrite (oseq_map _ _ _ boundary_rt). reflexivity.
  Qed.
End RT.
