(* C59: the probability map of calc_eigenvalues. *)
From Verif Require Import Base Scalar Rle RleProofs RSum Cplx SolverPost SolverPostProofs PropsPost.
From Coq Require Import Reals Lra Sorted.
Local Open Scope R_scope.
Add Ring CXring : (k_ring CX).

(** ** Specification *)
(** The levels that hang together with level [n]: every gap between the two is below the tolerance. *)
Definition linked (vals : list R) (tol : R) (n m : nat) : Prop :=
  forall p, (Nat.min n m <= p < Nat.max n m)%nat -> near vals tol p.
Definition near_b (vals : list R) (tol : R) (p : nat) : bool := if Rlt_dec (Rabs (nth (p + 1) vals 0 - nth p vals 0)) tol then true else false.
Definition linked_b (vals : list R) (tol : R) (n m : nat) : bool :=
  forallb (near_b vals tol) (seq (Nat.min n m) (Nat.max n m - Nat.min n m)).
Definition level_class (vals : list R) (tol : R) (n : nat) : list nat := filter (linked_b vals tol n) (seq 0 (length vals)).
(** The mean of [f] over the levels that hang together with [n]. *)
Definition class_mean (vals : list R) (tol : R) (f : nat -> R) (n : nat) : R :=
  fold_right Rplus 0 (map f (level_class vals tol n)) / INR (length (level_class vals tol n)).
(** The probability to find state [n] at a site with the Hamiltonian rows [ix]. *)
Definition site_density (psi : nat -> nat -> CX) (ix : list nat) (n : nat) : R :=
  fold_right Rplus 0 (map (fun r => fst (psi r n) ^ 2 + snd (psi r n) ^ 2) ix).

(** Each state is shown with its probability density at the site (mean over degenerate states). *)
Definition C59_claim : Prop := forall vals psi d s ix tol p,
  (forall e, In e d -> (0 < e_norb e)%nat) -> to_hamiltonian_indices d s = Ok ix -> (s < rle_size d)%nat ->
  calc_eigenvalues vals psi (hamiltonian_size d) (Ok s) tol = Ok p ->
  length p = length vals /\ forall n, (n < length vals)%nat -> nth n p 0 = class_mean vals tol (site_density psi ix) n.

(** ** Proofs *)
Lemma near_b_spec : forall vals tol p, near_b vals tol p = true <-> near vals tol p.
Proof. intros. unfold near_b, near. destruct (Rlt_dec _ _); split; intros; auto; try discriminate; contradiction. Qed.
Lemma linked_b_spec : forall vals tol n m, linked_b vals tol n m = true <-> linked vals tol n m.
Proof.
  intros vals tol n m. unfold linked_b, linked. rewrite forallb_forall. split; intros H p Hp.
  - apply near_b_spec, H, in_seq. lia.
  - apply near_b_spec, H. apply in_seq in Hp. lia.
Qed.
Lemma linked_sym : forall vals tol n m, linked vals tol n m -> linked vals tol m n.
Proof. intros vals tol n m H p Hp. apply H. lia. Qed.
Lemma linked_trans : forall vals tol a b c, linked vals tol a b -> linked vals tol b c -> linked vals tol a c.
Proof.
  intros vals tol a b c H1 H2 p Hp. destruct (Nat.lt_ge_cases p (Nat.min a b)); [apply H2; lia|].
  destruct (Nat.lt_ge_cases p (Nat.max a b)); [apply H1; lia|apply H2; lia].
Qed.
Lemma linked_refl : forall vals tol a, linked vals tol a a. Proof. intros vals tol a p Hp. lia. Qed.
Lemma class_in : forall vals tol n m, In m (level_class vals tol n) <-> (m < length vals)%nat /\ linked vals tol n m.
Proof. intros. unfold level_class. rewrite filter_In, in_seq, linked_b_spec. split; intros (A & B); split; auto; lia. Qed.
Lemma class_same : forall vals tol n m, linked vals tol n m -> level_class vals tol n = level_class vals tol m.
Proof.
  intros vals tol n m H. unfold level_class. apply filter_ext. intros k. apply eq_true_iff_eq. rewrite !linked_b_spec.
  split; intros Q; [apply linked_trans with n; [apply linked_sym|]|apply linked_trans with m]; auto.
Qed.
Lemma class_sorted : forall vals tol n, StronglySorted lt (level_class vals tol n).
Proof. intros. apply filter_seq_sorted. Qed.

Lemma sorted_same : forall l l', StronglySorted lt l -> StronglySorted lt l' -> (forall x, In x l <-> In x l') -> l = l'.
Proof.
  induction l as [|x l IH]; intros l' S S' H.
  - destruct l' as [|y l']; [reflexivity|]. exfalso. apply (H y). left; auto.
  - apply StronglySorted_inv in S. destruct S as (S & F). rewrite Forall_forall in F. destruct l' as [|y l']; [exfalso; apply (H x); left; auto|].
    apply StronglySorted_inv in S'. destruct S' as (S' & F'). rewrite Forall_forall in F'.
    assert (x = y).
    { destruct (proj1 (H x) (or_introl eq_refl)) as [E|E]; [auto|]. destruct (proj2 (H y) (or_introl eq_refl)) as [E'|E']; [auto|].
      apply F in E'. apply F' in E. lia. }
    subst y. f_equal. apply IH; auto. intros z. split; intros Hz.
    + destruct (proj1 (H z) (or_intror Hz)) as [E|E]; [|auto]. subst z. apply F in Hz. lia.
    + destruct (proj2 (H z) (or_intror Hz)) as [E|E]; [|auto]. subst z. apply F' in Hz. lia.
Qed.
Lemma seq_sorted : forall k s, StronglySorted lt (seq s k).
Proof. induction k as [|k IH]; intros s; cbn; constructor; auto. apply Forall_forall. intros x Hx. apply in_seq in Hx. lia. Qed.

(** Levels in a group see exactly that group; levels in no group see themselves. *)
Lemma class_group : forall vals tol g n, In g (find_degenerate_states vals tol) -> In n g -> level_class vals tol n = g.
Proof.
  intros vals tol g n Hg Hn. apply groups_runs in Hg. destruct Hg as (a & b & (Hab & Hin & A & B) & ->). apply in_seq in Hn.
  apply sorted_same; [apply class_sorted|apply seq_sorted|]. intros m. rewrite class_in, in_seq. split.
  - intros (Hm & L). destruct (Nat.lt_ge_cases m a) as [H|H].
    { exfalso. destruct A as [->|A]; [lia|]. apply A, L. lia. }
    destruct (Nat.lt_ge_cases b m) as [H'|H']; [|lia]. exfalso. destruct B as [B|B]; [lia|]. apply B, L. lia.
  - intros Hm. split; [lia|]. intros p Hp. apply Hin. lia.
Qed.
Lemma class_alone : forall vals tol n, (n < length vals)%nat -> (forall g, In g (find_degenerate_states vals tol) -> ~ In n g) -> level_class vals tol n = [n].
Proof.
  intros vals tol n Hn Hno. apply sorted_same; [apply class_sorted|repeat constructor|]. intros m. rewrite class_in. split.
  2:{ intros [<-|[]]. split; [exact Hn|apply linked_refl]. }
  intros (Hm & L). destruct (Nat.eq_dec n m) as [->|N]; [left; auto|]. exfalso.
  assert (exists i, (i + 1 < length vals)%nat /\ near vals tol i /\ (i = n \/ i + 1 = n)%nat) as (i & Hi & Hni & Hin).
  { destruct (Nat.lt_ge_cases n m) as [H|H].
    - exists n. split; [lia|]. split; [apply L; lia|auto].
    - exists (n - 1)%nat. split; [lia|]. split; [apply L; lia|right; lia]. }
  destruct (run_around vals tol i Hi Hni) as (a & b & Rn & H1 & H2). apply (Hno (seq a (b - a + 1))); [apply groups_runs; eauto|]. apply in_seq. lia.
Qed.

(** *** averaging the groups *)
Lemma fold_upd : forall g p m i, (forall j, In j g -> (j < length p)%nat) ->
  nth i (fold_left (fun p i => upd p i m) g p) 0 = (if in_dec Nat.eq_dec i g then m else nth i p 0) /\
  length (fold_left (fun p i => upd p i m) g p) = length p.
Proof.
  induction g as [|j g IH]; intros p m i H; [cbn; auto|]. cbn [fold_left].
  destruct (IH (upd p j m) m i) as (E & L). { intros k Hk. rewrite upd_length. apply H. right; auto. }
  rewrite L, upd_length. split; [|reflexivity]. rewrite E. destruct (in_dec Nat.eq_dec i g) as [I|I], (in_dec Nat.eq_dec i (j :: g)) as [I'|I'].
  - reflexivity.
  - exfalso. apply I'. right; auto.
  - destruct I' as [<-|I']; [|contradiction]. apply nth_upd_eq, H. left; auto.
  - apply nth_upd_neq. intros ->. apply I'. left; auto.
Qed.
Definition group_mean (p : list R) (g : list nat) : R := lsum (map (fun i => nth i p 0) g) / INR (length g).
Lemma average_spec : forall g p i, (forall j, In j g -> (j < length p)%nat) ->
  nth i (average_group p g) 0 = (if in_dec Nat.eq_dec i g then group_mean p g else nth i p 0) /\ length (average_group p g) = length p.
Proof. intros. unfold average_group. cbn zeta. apply fold_upd. auto. Qed.
Lemma fold_average : forall gs p, (forall j, In j (concat gs) -> (j < length p)%nat) -> NoDup (concat gs) ->
  length (fold_left average_group gs p) = length p /\
  (forall i, ~ In i (concat gs) -> nth i (fold_left average_group gs p) 0 = nth i p 0) /\
  (forall g i, In g gs -> In i g -> nth i (fold_left average_group gs p) 0 = group_mean p g).
Proof.
  induction gs as [|g gs IH]; intros p H ND; [cbn; split; [|split]; auto; intros; contradiction|]. cbn [fold_left concat] in *.
  assert (Hg : forall j, In j g -> (j < length p)%nat) by (intros; apply H, in_or_app; auto).
  assert (D : forall j, In j g -> ~ In j (concat gs)).
  { intros j Hj Hc. apply in_split in Hj. destruct Hj as (l1 & l2 & ->). rewrite <- app_assoc in ND. cbn in ND.
    apply NoDup_remove_2 in ND. apply ND. rewrite !in_app_iff. auto. }
  assert (ND' : NoDup (concat gs)).
  { clear -ND. induction g; [exact ND|]. inversion ND; auto. }
  destruct (IH (average_group p g)) as (L & N & G).
  { intros j Hj. rewrite (proj2 (average_spec g p j Hg)). apply H, in_or_app. auto. } { exact ND'. }
  rewrite (proj2 (average_spec g p O Hg)) in L. split; [exact L|]. split.
  - intros i Hi. rewrite N by (intros Q; apply Hi, in_or_app; auto). rewrite (proj1 (average_spec g p i Hg)).
    destruct (in_dec Nat.eq_dec i g) as [I|I]; [exfalso; apply Hi, in_or_app; auto|reflexivity].
  - intros h i [->|Hh] Hi.
    + rewrite N by (apply D, Hi). rewrite (proj1 (average_spec h p i Hg)). destruct (in_dec Nat.eq_dec i h); [reflexivity|contradiction].
    + rewrite (G h i Hh Hi). unfold group_mean. f_equal. apply lsum_ext. intros k Hk. rewrite (proj1 (average_spec g p k Hg)).
      destruct (in_dec Nat.eq_dec k g) as [I|I]; [|reflexivity]. exfalso. apply (D k I), in_concat. eauto.
Qed.

Lemma groups_bound : forall vals tol j, In j (concat (find_degenerate_states vals tol)) -> (j < length vals)%nat.
Proof.
  intros vals tol j H. apply in_concat in H. destruct H as (g & Hg & Hj). apply groups_runs in Hg. destruct Hg as (a & b & (Hab & _) & ->).
  apply in_seq in Hj. lia.
Qed.
Lemma averaged : forall vals tol (f : nat -> R), let p := map f (seq 0 (length vals)) in
  let q := fold_left average_group (find_degenerate_states vals tol) p in
  length q = length vals /\ forall n, (n < length vals)%nat -> nth n q 0 = class_mean vals tol f n.
Proof.
  intros vals tol f p q. assert (Lp : length p = length vals) by (unfold p; rewrite map_length, seq_length; reflexivity).
  assert (NP : forall i, (i < length vals)%nat -> nth i p 0 = f i).
  { intros i Hi. unfold p. rewrite (nth_indep _ 0 (f O)) by (rewrite map_length, seq_length; exact Hi). rewrite map_nth, seq_nth by exact Hi. reflexivity. }
  destruct (fold_average (find_degenerate_states vals tol) p) as (L & N & G).
  { intros j Hj. rewrite Lp. apply (groups_bound vals tol), Hj. } { apply sorted_nodup, C58. }
  split; [unfold q; congruence|]. intros n Hn. unfold q. destruct (in_dec Nat.eq_dec n (concat (find_degenerate_states vals tol))) as [I|I].
  - assert (B : forall j, In j (concat (find_degenerate_states vals tol)) -> (j < length vals)%nat) by apply groups_bound.
    pose proof I as I0. apply in_concat in I. destruct I as (g & Hg & Ig). rewrite (G g n Hg Ig). unfold class_mean, group_mean. rewrite (class_group vals tol g n Hg Ig).
    f_equal. apply lsum_ext. intros i Hi. apply NP, B, in_concat. eauto.
  - rewrite N, NP by auto. unfold class_mean. rewrite class_alone; [cbn; field|exact Hn|]. intros g Hg Hng. apply I, in_concat. eauto.
Qed.

Lemma lsum_upd : forall p i m, (i < length p)%nat -> lsum (upd p i m) = lsum p - nth i p 0 + m.
Proof.
  induction p as [|x p IH]; intros i m H; [cbn in H; lia|]. destruct i as [|i]; cbn [upd nth].
  - change (m + lsum p = x + lsum p - x + m). lra.
  - cbn in H. change (x + lsum (upd p i m) = x + lsum p - nth i p 0 + m). rewrite IH by lia. lra.
Qed.
Lemma lsum_fold_upd : forall g p m, NoDup g -> (forall j, In j g -> (j < length p)%nat) ->
  lsum (fold_left (fun p i => upd p i m) g p) = lsum p - lsum (map (fun i => nth i p 0) g) + INR (length g) * m.
Proof.
  induction g as [|j g IH]; intros p m ND H; [unfold lsum; cbn; ring|]. cbn [fold_left]. inversion ND as [|? ? Nj ND']; subst.
  rewrite IH; [|exact ND'|intros; rewrite upd_length; apply H; right; auto]. rewrite lsum_upd by (apply H; left; auto).
  cbn [length map]. rewrite S_INR. change (lsum (?a :: ?b)) with (a + lsum b).
  replace (map (fun i => nth i (upd p j m) 0) g) with (map (fun i => nth i p 0) g); [ring|].
  apply map_ext_in. intros i Hi. symmetry. apply nth_upd_neq. intros ->. contradiction.
Qed.
Lemma lsum_average : forall gs p, (forall g, In g gs -> NoDup g /\ g <> [] /\ forall j, In j g -> (j < length p)%nat) ->
  lsum (fold_left average_group gs p) = lsum p.
Proof.
  induction gs as [|g gs IH]; intros p H; [reflexivity|]. cbn [fold_left]. destruct (H g (or_introl eq_refl)) as (ND & NE & B).
  rewrite IH.
  - unfold average_group. cbn zeta. rewrite lsum_fold_upd by auto. field. apply not_0_INR. destruct g; [congruence|cbn; lia].
  - intros h Hh. destruct (H h (or_intror Hh)) as (A1 & A2 & A3). split; [auto|]. split; [auto|].
    intros j Hj. rewrite (proj2 (average_spec g p j B)). auto.
Qed.

(** *** unitary mixing *)
Lemma re_sum : forall {A} (f : A -> R) l, re (lsum (map f l)) = ksum (R := CX) (fun a => re (f a)) l.
Proof.
  intros A f l. induction l as [|a l IH]; [reflexivity|]. rewrite ksum_cons, <- IH. cbn. unfold re, cx_add, lsum. cbn. f_equal. ring.
Qed.
Lemma ksum_delta : forall (c : nat -> CX) l m, NoDup l -> In m l -> ksum (fun k => kmul (c k) (if Nat.eq_dec m k then k1 else k0)) l = c m.
Proof.
  intros c l m ND H. induction l as [|x l IH]; [destruct H|]. inversion ND as [|? ? Nx ND']; subst. rewrite ksum_cons.
  destruct (Nat.eq_dec m x) as [->|N].
  - rewrite ksum_0; [ring|]. intros k Hk. destruct (Nat.eq_dec x k) as [->|]; [contradiction|ring].
  - destruct H as [->|H]; [congruence|]. rewrite IH by auto. ring.
Qed.
(** [U] is unitary on the levels of [l]. *)
Definition unitary_on (U : nat -> nat -> CX) (l : list nat) : Prop := forall m m', In m l -> In m' l ->
  ksum (fun k => kmul (kconj (U m k)) (U m' k)) l = (if Nat.eq_dec m m' then k1 else k0).

Lemma unitary_density : forall (x : nat -> CX) U l, NoDup l -> unitary_on U l ->
  lsum (map (fun k => abs2 (ksum (fun m => kmul (x m) (U m k)) l)) l) = lsum (map (fun m => abs2 (x m)) l).
Proof.
  intros x U l ND HU. assert (E : re (lsum (map (fun k => abs2 (ksum (fun m => kmul (x m) (U m k)) l)) l)) = re (lsum (map (fun m => abs2 (x m)) l))).
  2:{ injection E. auto. }
  rewrite !re_sum. rewrite (ksum_ext _ (fun a => re (abs2 (x a))) (fun a => kmul (kconj (x a)) (x a))) by (intros; symmetry; apply abs2_conj).
  transitivity (ksum (fun k => ksum (fun m => ksum (fun m' => kmul (kmul (kconj (x m)) (x m')) (kmul (kconj (U m k)) (U m' k))) l) l) l).
  - apply ksum_ext. intros k _. rewrite <- abs2_conj, ksum_conj, <- ksum_mul_r. apply ksum_ext. intros m _. rewrite <- ksum_mul_l. apply ksum_ext. intros m' _.
    rewrite kconj_mul. ring.
  - rewrite ksum_swap. apply ksum_ext. intros m Hm. rewrite ksum_swap.
    rewrite (ksum_ext _ _ (fun m' => kmul (kmul (kconj (x m)) (x m')) (if Nat.eq_dec m m' then k1 else k0))).
    + apply (ksum_delta (fun k => kmul (kconj (x m)) (x k))); auto.
    + intros m' Hm'. rewrite ksum_mul_l, HU by auto. reflexivity.
Qed.

Lemma single_index : forall d s, (forall e, In e d -> e_norb e = 1%nat) -> (s < rle_size d)%nat -> to_hamiltonian_indices d s = Ok [s].
Proof.
  intros d s H Hs. rewrite to_ham_spec by exact Hs. assert (A : map snd (labels d) = repeat 1%nat (length (labels d))).
  { clear Hs. induction d as [|e d IH]; [reflexivity|]. rewrite snd_labels_cons, IH by (intros; apply H; right; auto).
    rewrite (H e (or_introl eq_refl)), labels_cons, app_length, repeat_app, repeat_length. reflexivity. }
  assert (C : orb_count d s = 1%nat).
  { unfold orb_count. rewrite rle_size_labels in Hs. replace (snd (nth s (labels d) (O, O))) with (nth s (map snd (labels d)) (snd (O, O))) by apply map_nth.
    rewrite A. clear -Hs. revert Hs. generalize (length (labels d)) as k. intros k. revert s. induction k as [|k IH]; intros s Hs; [lia|]. destruct s; [reflexivity|]. cbn. apply IH. lia. }
  rewrite C. cbn. do 2 f_equal. unfold orb_offset. rewrite <- firstn_map, A. rewrite rle_size_labels in Hs.
  clear -Hs. revert Hs. generalize (length (labels d)) as k. intros k. revert s. induction k as [|k IH]; intros s Hs; [lia|]. destruct s; [reflexivity|].
  cbn [repeat firstn]. rewrite sum_list_cons, IH by lia. lia.
Qed.

Lemma hamiltonian_single : forall d, (forall e, In e d -> e_norb e = 1%nat) -> hamiltonian_size d = rle_size d.
Proof.
  intros d H. rewrite hamiltonian_size_labels, rle_size_labels. induction d as [|e d IH]; [reflexivity|].
  rewrite snd_labels_cons, sum_list_app, sum_list_repeat, IH by (intros; apply H; right; auto).
  rewrite labels_cons, app_length, repeat_length, (H e (or_introl eq_refl)). lia.
Qed.

(** What holds: for models with one orbital per site the map shows the (group mean of the)
    probability density at the site; the sum over all states is that of the plain densities; and
    the result does not depend on the basis the eigensolver chose inside a group. *)
Theorem C59_partial :
  (forall vals psi d s ix tol, (forall e, In e d -> e_norb e = 1%nat) -> (s < rle_size d)%nat -> to_hamiltonian_indices d s = Ok ix ->
    exists p, calc_eigenvalues vals psi (hamiltonian_size d) (Ok s) tol = Ok p /\ length p = length vals /\
      (forall n, (n < length vals)%nat -> nth n p 0 = class_mean vals tol (site_density psi ix) n) /\
      fold_right Rplus 0 p = fold_right Rplus 0 (map (site_density psi ix) (seq 0 (length vals)))) /\
  (forall vals psi psi' U rows s tol,
    (forall n, (n < length vals)%nat -> unitary_on U (level_class vals tol n)) ->
    (forall n, (n < length vals)%nat -> psi' s n = ksum (fun m => kmul (psi s m) (U m n)) (level_class vals tol n)) ->
    calc_eigenvalues vals psi' rows (Ok s) tol = calc_eigenvalues vals psi rows (Ok s) tol).
Proof.
  split.
  - intros vals psi d s ix tol H1 Hs Hix. rewrite single_index in Hix by auto. injection Hix as <-.
    unfold calc_eigenvalues. cbn [obind]. rewrite hamiltonian_single by exact H1. rewrite (proj2 (Nat.ltb_lt _ _) Hs).
    eexists. split; [reflexivity|].
    replace (map (fun n => abs2 (psi s n)) (seq 0 (length vals))) with (map (site_density psi [s]) (seq 0 (length vals)))
      by (apply map_ext; intros n; unfold site_density, abs2; cbn; ring).
    destruct (averaged vals tol (site_density psi [s])) as (L & V). split; [exact L|]. split; [exact V|].
    apply lsum_average. intros g Hg. apply groups_runs in Hg. destruct Hg as (a & b & (Hab & _) & ->).
    split; [apply seq_NoDup|]. split; [rewrite Nat.add_1_r; discriminate|]. intros j Hj. apply in_seq in Hj. rewrite map_length, seq_length. lia.
  - intros vals psi psi' U rows s tol HU Hpsi. unfold calc_eigenvalues. cbn [obind]. destruct (s <? rows)%nat; [|reflexivity]. f_equal.
    destruct (averaged vals tol (fun n => abs2 (psi' s n))) as (L' & V'). destruct (averaged vals tol (fun n => abs2 (psi s n))) as (L & V).
    apply (nth_ext _ _ 0 0); [congruence|]. intros n Hn. rewrite L' in Hn. rewrite V', V by exact Hn. unfold class_mean. f_equal.
    assert (E : map (fun k => abs2 (psi' s k)) (level_class vals tol n) = map (fun k => abs2 (ksum (fun m => kmul (psi s m) (U m k)) (level_class vals tol n))) (level_class vals tol n)).
    { apply map_ext_in. intros k Hk. apply class_in in Hk. destruct Hk as (Hk & Lk). rewrite Hpsi by exact Hk. rewrite (class_same vals tol n k Lk). reflexivity. }
    rewrite E. apply unitary_density; [apply sorted_nodup, class_sorted|apply HU, Hn].
Qed.

(** The claim fails for multi-orbital models: the site index is used as the eigenvector row.  Site
    1 of a system with a two-orbital site 0 is Hamiltonian row 2; the map shows row 1, the second
    orbital of site 0. *)
Theorem C59_refuted : ~ C59_claim.
Proof.
  intros C. specialize (C [5] (fun r _ => if (r =? 1)%nat then mk 1 0 else mk 0 0) [Elem 0 1 2; Elem 1 1 1] 1%nat [2%nat] 1).
  edestruct C as (_ & Q).
  - intros e [<-|[<-|[]]]; cbn; lia.
  - reflexivity.
  - cbn. lia.
  - reflexivity.
  - specialize (Q O ltac:(cbn; lia)). unfold class_mean, level_class, site_density in Q. cbn in Q. unfold abs2, mk in Q. cbn in Q. lra.
Qed.

(** Two degenerate states and a third one, chain of two sites: site 0 is shown with the mean of
    the first two. *)
Example C59_example : exists p,
  calc_eigenvalues [1; 1; 3] (fun r n => if (r =? n)%nat then mk 1 0 else mk 0 0) 2 (Ok 0%nat) (1 / 2) = Ok p /\ p = [1 / 2; 1 / 2; 0].
Proof.
  eexists. split; [reflexivity|]. assert (F : find_degenerate_states [1; 1; 3] (1 / 2) = [[0; 1]]%nat).
  { unfold find_degenerate_states. cbn [length Nat.sub seq filter]. unfold close_above. cbn [Nat.add nth].
    repeat match goal with |- context [Rlt_dec (Rabs ?x) ?t] => destruct (Rlt_dec (Rabs x) t) as [H|H];
      [first [exfalso; clear -H; unfold Rabs in H; destruct (Rcase_abs x); lra|clear H]|first [exfalso; apply H; clear; unfold Rabs; destruct (Rcase_abs x); lra|clear H]] end.
    vm_compute. reflexivity. }
  rewrite F. unfold average_group, abs2, mk, lsum. cbn [fold_left map seq length Nat.eqb nth fst snd upd fold_right]. cbn [upd length INR fst snd]. cbn.
  f_equal; [field|f_equal; [field|f_equal; ring]].
Qed.

Print Assumptions C59_partial.
Print Assumptions C59_refuted.
