(* Helpers for the material repository. *)
From Coq Require Import Reals Lra ZArith.
From Verif Require Import Base Scalar Foundation Lattice FoundationSpec Hamiltonian BulkSpec Materials MaterialsSpec.

Definition real_energy {K : scalar} (e : K) : Prop := kconj e = e.

Lemma onsite_num : forall (K : scalar) (e : K), real_energy e -> onsite_ok (single e) = true.
Proof.
  intros K e H. unfold onsite_ok, diag_real, is_upper, single. cbn. rewrite (proj2 (keqb_eq K e (kconj e))) by (symmetry; exact H). reflexivity.
Qed.

Lemma run_sub : forall (K : scalar) P oo order n (q : P) (e : K) l u, real_energy e -> make_uid l n = Some u ->
  run_call oo order (Some l) (AddSublattice n q (single e)) =
    Some (Lat (l_subs l ++ [Sub n q (hermitian_view (single e)) u u]) (l_fams l) (l_offset l) (l_min l)).
Proof. intros. cbn [run_call call]. unfold add_sublattice. rewrite onsite_num by assumption. rewrite H0. reflexivity. Qed.

Lemma run_app : forall (K : scalar) P oo order (a b : list (lcall K P)),
  run oo order (a ++ b) = fold_left (run_call oo order) b (run oo order a).
Proof. intros. unfold run. apply fold_left_app. Qed.

(** Every accepted program is a history in the sense of C01-C04. *)
Lemma run_calls : forall (K : scalar) P oo order (cs : list (lcall K P)) l, run oo order cs = Some l -> calls oo order cs = l.
Proof.
  intros K P oo order cs l. unfold run, calls. generalize (@new_lattice K P) as l0. induction cs as [|c cs IH]; intros l0 H.
  - cbn in *. congruence.
  - cbn [fold_left] in *. unfold run_call in H at 2. destruct (call oo order c l0) as [l1 b] eqn:E. cbn in *.
    destruct b; [apply IH; exact H|]. exfalso. revert H. clear. induction cs; cbn; [discriminate|exact IHcs].
Qed.

Lemma eqb3_spec : forall a b, eqb3 a b = ((ix a =? ix b) && (iy a =? iy b) && (iz a =? iz b))%Z.
Proof. reflexivity. Qed.

(** Element from [x] to [y] written with the difference of the cells. *)
Definition goes (p q r : Z) (a b : nat) (t : term) : bool :=
  ((a =? t_from t) && (b =? t_to t))%nat && ((p =? ix (t_rel t)) && (q =? iy (t_rel t)) && (r =? iz (t_rel t)))%Z.
Definition sum_goes {K : scalar} (fams : list (family K)) (p q r : Z) (a b : nat) (i j : nat) : K :=
  ksum (fun f => ksum (fun t => if goes p q r a b t then m_at (fm_energy f) i j else k0) (fm_terms f)) fams.
Lemma leads_goes : forall t x y, leads_to t x y =
  goes (ix (fst y) - ix (fst x)) (iy (fst y) - iy (fst x)) (iz (fst y) - iz (fst x)) (snd x) (snd y) t.
Proof.
  intros t [c a] [d b]. unfold leads_to, goes. cbn [fst snd]. f_equal. rewrite eqb3_spec. cbn [ix iy iz shifted_cell].
  f_equal; [f_equal|]; apply Bool.eq_true_iff_eq; rewrite !Z.eqb_eq; lia.
Qed.
Lemma bulk_goes : forall (K : scalar) (fams : list (family K)) x i y j,
  let p := (ix (fst y) - ix (fst x))%Z in let q := (iy (fst y) - iy (fst x))%Z in let r := (iz (fst y) - iz (fst x))%Z in
  bulk complex_type fams x i y j = kadd (sum_goes fams p q r (snd x) (snd y) i j) (kconj (sum_goes fams (- p) (- q) (- r) (snd y) (snd x) j i)).
Proof.
  intros K fams x i y j p q r. unfold bulk, hops_to, sum_goes. cbn [nt_conj complex_type nt_cast]. f_equal; [|f_equal].
  - apply ksum_ext. intros f _. apply ksum_ext. intros t _. rewrite leads_goes. reflexivity.
  - apply ksum_ext. intros f _. apply ksum_ext. intros t _. rewrite leads_goes.
    replace (ix (fst x) - ix (fst y))%Z with (- p)%Z by (unfold p; lia).
    replace (iy (fst x) - iy (fst y))%Z with (- q)%Z by (unfold q; lia).
    replace (iz (fst x) - iz (fst y))%Z with (- r)%Z by (unfold r; lia). reflexivity.
Qed.
