(* C71: the mass term of the graphene repository. *)
From Coq Require Import Reals Lra Lia.
From Verif Require Import Base Rle Blocks TablesSpec Scalar Foundation Lattice Hamiltonian HamiltonianSpec HamCor HamElements ModsSystem RSum Cplx Spectral Materials MaterialsSpec GrapheneModifiers MassProofs PropsHamiltonian.
Local Open Scope R_scope.
Add Ring CXr : (k_ring CX).

(** Name of the sublattice of a site. *)
Definition sub_name (sys : hsys CX vec3) (s : nat) : name :=
  fst (reg_entry (hs_site sys) (fst (nth s (site_list (hs_subs sys)) (0, 0))%nat)).
Definition single_orbital (sys : hsys CX vec3) : Prop := forall e, In e (hs_subs sys) -> e_norb e = 1%nat.
(** Sites are on A or B, every bond joins A to B, all onsite energies vanish. *)
Definition bipartite (sys : hsys CX vec3) : Prop :=
  (forall s, (s < rle_size (hs_subs sys))%nat -> sub_name sys s = Nm 0 \/ sub_name sys s = Nm 1) /\
  (forall h f c, h = hs_hops sys \/ In h (map fst (hs_bounds sys)) -> In (f, c) (stored h) -> sub_name sys (fst c) <> sub_name sys (snd c)) /\
  (forall e, In e (hs_subs sys) -> m_at (snd (reg_entry (hs_site sys) (e_id e))) 0 0 = k0).

Definition stagger (d : R) (n : name) : R := match n with Nm 0 => d | Nm 1 => - d | _ => 0 end.

(** The modifier where it does not raise. *)
Definition mass_any (d : R) : onsite_mod CX vec3 := fun _ _ sub_id buf => Ok (map (mass_shift d sub_id) buf).
Definition mass_rule (d : R) : os_rule CX vec3 := fun nm _ A => Mat (m_rows A) (m_cols A) (fun i j => mass_shift d nm (m_at A i j)).
Lemma mass_shift_add : forall d n e, mass_shift d n e = kadd e (re (stagger d n)).
Proof.
  intros d n e. unfold mass_shift, stagger.
  destruct n as [|[|[|n]]|n]; cbn [name_eqb Nat.eqb];
    (change (re 0) with (@k0 CX); ring) || (replace (re (- d)) with (kopp (re d)) by (cbn; unfold cx_opp, re; cbn [fst snd]; f_equal; ring); ring) || ring.
Qed.
Lemma mass_follows : forall d, os_follows (mass_any d) (mass_rule d).
Proof.
  intros d. split.
  - intros nm p A B (H1 & H2 & H3). cbn. repeat split; auto. intros i j Hi Hj. cbn in *. rewrite H3 by auto. reflexivity.
  - intros n ps nm buf L. eexists. split; [reflexivity|]. split; [apply map_length|]. intros i j k p Hi Hj Hp.
    assert (Hk : (k < length ps)%nat) by (apply nth_error_Some; congruence).
    unfold elem at 1. cbn [m_at mass_rule]. unfold elem.
    assert (B : ((i * n + j) * length ps + k < length buf)%nat).
    { rewrite L. assert (i * n + j + 1 <= n * n)%nat by nia. assert ((i * n + j + 1) * length ps <= n * n * length ps)%nat by (apply Nat.mul_le_mono_r; assumption). nia. }
    rewrite (nth_indep _ k0 (mass_shift d nm k0)) by (rewrite map_length; exact B). apply map_nth.
Qed.
Lemma mass_same : forall sys cap nt hm un ph simple d, single_orbital sys ->
  ham_make cap nt sys [mass_term d] hm un ph simple = ham_make cap nt sys [mass_any d] hm un ph simple.
Proof.
  intros sys cap nt hm un ph simple d H1. unfold ham_make, build_main.
  replace (apply_to_onsite nt sys [mass_any d]) with (apply_to_onsite nt sys [mass_term d]); [reflexivity|].
  unfold apply_to_onsite. cbn [length]. destruct (negb _ && _); [reflexivity|]. apply ofold_ext_in. intros acc it Hit.
  apply iter_inside in Hit. destruct Hit as [Hit _].
  f_equal. unfold onsite_buffer. rewrite (H1 _ Hit). reflexivity.
Qed.

Lemma ones : forall (l : list (nat * nat)) s, (forall x, In x l -> snd x = 1%nat) -> (s <= length l)%nat -> sum_list (map snd (firstn s l)) = s.
Proof.
  induction l as [|x l IH]; intros s H L; [cbn in L; replace s with 0%nat by lia; reflexivity|].
  destruct s as [|s]; [reflexivity|]. cbn [firstn map]. cbn [length] in L. rewrite sum_list_cons.
  rewrite IH by (try lia; intros y Hy; apply H; right; exact Hy). rewrite (H x) by (left; reflexivity). reflexivity.
Qed.
Lemma row_single : forall d s, (forall e, In e d -> e_norb e = 1%nat) -> (s < rle_size d)%nat -> row_of d s 0 = s /\ norb_at d s = 1%nat.
Proof.
  intros d s H Hs.
  assert (A : forall x, In x (site_list d) -> snd x = 1%nat).
  { intros x Hx. unfold site_list in Hx. apply in_flat_map in Hx. destruct Hx as (e & He & Hx). apply repeat_spec in Hx. subst x. apply H. exact He. }
  rewrite RleProofs.rle_size_labels in Hs. change (RleProofs.labels d) with (site_list d) in Hs. split.
  - unfold row_of. rewrite ones by (try lia; exact A). lia.
  - unfold norb_at. apply A. apply nth_In. exact Hs.
Qed.

Section Sys.
  Variable sys : hsys CX vec3.
  Variable hm : list (hopping_mod CX vec3).
  Variable hg : list (hop_rule CX vec3).
  Variables (un : vec3 -> vec3 -> vec3) (ph : vec3 -> CX) (simple : bool) (cap : nat).
  Let N := rle_size (hs_subs sys).
  Hypothesis W : wf_hsys sys.
  Hypothesis Hh : Forall2 hop_follows hm hg.
  Hypothesis C : cap_fits CX vec3 sys cap.
  Hypothesis S : simple = true -> simple_bonds sys.
  Hypothesis H1 : single_orbital sys.

  Lemma mass_elements : forall d, exists m0 m1,
    ham_make cap complex_type sys [] hm un ph simple = Ok m0 /\
    ham_make cap complex_type sys [mass_term d] hm un ph simple = Ok m1 /\
    (forall s t, (s < N)%nat -> (t < N)%nat -> coeff m0 s t = element complex_type sys [] hg un ph s 0 t 0) /\
    forall s t, (s < N)%nat -> (t < N)%nat ->
      coeff m1 s t = kadd (coeff m0 s t) (if (s =? t)%nat then re (stagger d (sub_name sys s)) else k0).
  Proof.
    intros d.
    destruct (C18_elements_partial CX vec3 complex_type sys [] [] hm hg un ph simple cap (complex_ok CX) W (Forall2_nil _) Hh C S) as (m0 & E0 & _ & P0).
    destruct (C18_elements_partial CX vec3 complex_type sys [mass_any d] [mass_rule d] hm hg un ph simple cap (complex_ok CX) W
      (Forall2_cons _ _ (mass_follows d) (Forall2_nil _)) Hh C S) as (m1 & E1 & _ & P1).
    exists m0, m1. split; [exact E0|]. split; [rewrite mass_same by exact H1; exact E1|].
    assert (Q0 : forall s t, (s < N)%nat -> (t < N)%nat -> coeff m0 s t = element complex_type sys [] hg un ph s 0 t 0).
    { intros s t Hs Ht. destruct (row_single _ s H1 Hs) as [R1 R2]. destruct (row_single _ t H1 Ht) as [R3 R4].
      rewrite <- P0 by (try assumption; lia). rewrite R1, R3. reflexivity. }
    split; [exact Q0|]. intros s t Hs Ht. destruct (row_single _ s H1 Hs) as [R1 R2]. destruct (row_single _ t H1 Ht) as [R3 R4].
    rewrite (Q0 s t Hs Ht). specialize (P1 s 0%nat t 0%nat Hs Ht ltac:(lia) ltac:(lia)). rewrite R1, R3 in P1. rewrite P1. unfold element.
    destruct (Nat.eqb_spec s t) as [->|Ne]; [|ring].
    assert (X : m_at (site_matrix complex_type sys [mass_rule d] t) 0 0 = kadd (m_at (site_matrix complex_type sys [] t) 0 0) (re (stagger d (sub_name sys t)))).
    { unfold site_matrix. assert (L : length (hs_pos sys) = N) by apply W.
      destruct (nth_error (hs_pos sys) t) as [p|] eqn:Ep; [|apply nth_error_None in Ep; lia].
      cbn [fold_left mass_rule m_at]. apply mass_shift_add. }
    rewrite X. ring.
  Qed.

  Hypothesis B : bipartite sys.
  Definition on_A (s : nat) : bool := name_eqb (sub_name sys s) (Nm 0).

  Lemma same_colour : forall s t, (s < N)%nat -> (t < N)%nat -> on_A s = on_A t -> sub_name sys s = sub_name sys t.
  Proof.
    intros s t Hs Ht E. destruct B as [B1 _]. unfold on_A in E.
    destruct (B1 s Hs) as [X|X], (B1 t Ht) as [Y|Y]; rewrite X, Y in *; cbn in E; congruence.
  Qed.
  Lemma part_off : forall (T : nat -> nat -> CX) c s t, (s < N)%nat -> (t < N)%nat -> sub_name sys (fst c) <> sub_name sys (snd c) -> on_A s = on_A t ->
    hop_part complex_type T c s 0 t 0 = k0.
  Proof.
    intros T c s t Hs Ht Hc E. pose proof (same_colour s t Hs Ht E) as X. unfold hop_part.
    destruct (Nat.eqb_spec (fst c) s), (Nat.eqb_spec (snd c) t), (Nat.eqb_spec (fst c) t), (Nat.eqb_spec (snd c) s); subst; cbn [andb]; try congruence; ring.
  Qed.
  Lemma bipartite_element : forall s t, (s < N)%nat -> (t < N)%nat -> on_A s = on_A t -> element complex_type sys [] hg un ph s 0 t 0 = k0.
  Proof.
    intros s t Hs Ht E. pose proof B as (_ & B2 & B3). unfold element.
    rewrite (ksum_0 CX _ (stored (hs_hops sys))).
    2: { intros [f c] Hin. cbn [fst snd]. apply part_off; try assumption. apply (B2 (hs_hops sys) f c); auto. }
    rewrite (ksum_0 CX _ (hs_bounds sys)).
    2: { intros b Hb. apply ksum_0. intros [f c] Hin. cbn [fst snd]. apply part_off; try assumption. apply (B2 (fst b) f c); auto. right. apply in_map. exact Hb. }
    destruct (Nat.eqb_spec s t) as [->|]; [|ring].
    assert (X : m_at (site_matrix complex_type sys [] t) 0 0 = k0).
    { assert (In (nth t (site_list (hs_subs sys)) (0, 0)%nat) (site_list (hs_subs sys))) as Hin.
      { apply nth_In. unfold N in Ht. rewrite RleProofs.rle_size_labels in Ht. exact Ht. }
      unfold site_list in Hin at 2. apply in_flat_map in Hin. destruct Hin as (e & He & Hx). apply repeat_spec in Hx.
      unfold site_matrix. rewrite Hx. cbn [fst fold_left]. destruct (nth_error (hs_pos sys) t); cbn [cast_mat m_at nt_cast complex_type]; apply B3; exact He. }
    rewrite X. ring.
  Qed.
  Lemma zero_hermitian : hermitian_energies complex_type sys.
  Proof.
    pose proof B as (_ & _ & B3). intros e He. destruct W as (_ & _ & W3 & _). destruct (W3 e He) as (_ & _ & R1 & R2). cbn zeta.
    split; [exact R1|]. split; [exact R2|]. intros i j Hi Hj. rewrite (H1 e He) in Hi, Hj. replace i with 0%nat by lia. replace j with 0%nat by lia.
    cbn [nt_cast nt_conj complex_type]. rewrite (B3 e He). symmetry. apply kconj_0.
  Qed.
End Sys.

(** The modifier adds +delta to the sites of A and -delta to those of B and nothing else. *)
Theorem C71 : forall (sys : hsys CX vec3) hm hg un ph simple cap d,
  wf_hsys sys -> Forall2 hop_follows hm hg -> cap_fits CX vec3 sys cap -> (simple = true -> simple_bonds sys) -> single_orbital sys ->
  exists m0 m1, ham_make cap complex_type sys [] hm un ph simple = Ok m0 /\
    ham_make cap complex_type sys [mass_term d] hm un ph simple = Ok m1 /\
    forall s t, (s < rle_size (hs_subs sys))%nat -> (t < rle_size (hs_subs sys))%nat ->
      coeff m1 s t = kadd (coeff m0 s t) (if (s =? t)%nat then re (stagger d (sub_name sys s)) else k0).
Proof.
  intros sys hm hg un ph simple cap d W Hh C S H1. destruct (mass_elements sys hm hg un ph simple cap W Hh C S H1 d) as (m0 & m1 & E0 & E1 & _ & P).
  exists m0, m1. auto.
Qed.
Print Assumptions C71.

(** For every system whose bonds join A to B, finite or periodic, at every wave vector and with any
    hopping modifiers: without the mass term the spectrum is symmetric; with it every eigenstate
    has polarisation delta / E, no energy lies within (-delta, delta), and states at the gap edges
    are on one sublattice. *)
Theorem C71_gap : forall (sys : hsys CX vec3) hm hg un ph simple cap d,
  wf_hsys sys -> Forall2 hop_follows hm hg -> cap_fits CX vec3 sys cap -> (simple = true -> simple_bonds sys) -> single_orbital sys -> bipartite sys ->
  exists m0 m1, ham_make cap complex_type sys [] hm un ph simple = Ok m0 /\
    ham_make cap complex_type sys [mass_term d] hm un ph simple = Ok m1 /\
    let N := rle_size (hs_subs sys) in
    (forall E v, eigen N (coeff m0) E v -> eigen N (coeff m0) (- E) (fun s => if on_A sys s then v s else kopp (v s))) /\
    forall E v, eigen N (coeff m1) E v ->
      let wA := weight N (on_A sys) true v in let wB := weight N (on_A sys) false v in
      E * (wA - wB) = d * (wA + wB) /\
      ((exists s, (s < N)%nat /\ v s <> k0) -> Rabs d <= Rabs E) /\
      (d <> 0 -> E = d -> wB = 0) /\ (d <> 0 -> E = - d -> wA = 0).
Proof.
  intros sys hm hg un ph simple cap d W Hh C S H1 B.
  destruct (mass_elements sys hm hg un ph simple cap W Hh C S H1 d) as (m0 & m1 & E0 & E1 & P0 & P1).
  exists m0, m1. split; [exact E0|]. split; [exact E1|]. intros N.
  assert (Hherm : forall s t, (s < N)%nat -> (t < N)%nat -> coeff m0 t s = kconj (coeff m0 s t)).
  { intros s t _ _. exact (C17_hermitian_partial CX vec3 complex_type sys cap [] hm un ph simple m0 (complex_ok CX) (zero_hermitian sys W H1 B) (Forall_nil _) E0 s t). }
  assert (Hbip : forall s t, (s < N)%nat -> (t < N)%nat -> on_A sys s = on_A sys t -> coeff m0 s t = k0).
  { intros s t Hs Ht E. rewrite P0 by assumption. apply bipartite_element; assumption. }
  split; [intros E v Hv; apply (chiral N (coeff m0) (on_A sys) Hbip); exact Hv|].
  intros E v Hv wA wB.
  assert (Hv' : eigen N (massive (coeff m0) (on_A sys) d) E v).
  { intros s Hs. rewrite <- (Hv s Hs). apply ksum_ext. intros t Ht. apply in_seq in Ht. f_equal. rewrite P1 by (unfold N in *; lia). unfold massive. f_equal.
    destruct (s =? t)%nat; [|reflexivity]. f_equal. unfold on_A, stagger. destruct B as [B1 _]. destruct (B1 s Hs) as [X|X]; rewrite X; reflexivity. }
  pose proof (mass_polarisation N (coeff m0) (on_A sys) Hherm Hbip d E v Hv') as PO. fold wA wB in PO.
  pose proof (weight_nonneg N (on_A sys) true v) as NA. pose proof (weight_nonneg N (on_A sys) false v) as NB. fold wA in NA. fold wB in NB.
  split; [exact PO|]. split; [|split].
  - intros (s & Hs & Hne).
    assert (T : 0 < wA + wB).
    { unfold wA, wB. rewrite weight_split. assert (0 < abs2 (v s)).
      { destruct (v s) as [x y] eqn:E'. unfold abs2. cbn [fst snd]. destruct (Req_dec x 0), (Req_dec y 0); subst; try nra. contradiction Hne. reflexivity. }
      assert (GE : forall n f, (s < n)%nat -> (forall i, 0 <= f i) -> f s <= rsum f n).
      { intros n f. induction n as [|n IH]; intros Hn Hf; [lia|]. cbn [rsum]. destruct (Nat.eq_dec s n) as [->|].
        - assert (0 <= rsum f n) by (apply rsum_nonneg; auto). lra.
        - specialize (IH ltac:(lia) Hf). specialize (Hf n). lra. }
      specialize (GE N (fun s => abs2 (v s)) Hs (fun i => abs2_nonneg _)). cbn beta in GE. lra. }
    apply Rnot_lt_le. intros L.
    assert (A : Rabs (d * (wA + wB)) <= Rabs E * (wA + wB)).
    { rewrite <- PO, Rabs_mult. apply Rmult_le_compat_l; [apply Rabs_pos|]. apply Rabs_le. lra. }
    rewrite Rabs_mult, (Rabs_pos_eq (wA + wB)) in A by lra. nra.
  - intros Hd ->. assert (d * wB = 0) by lra. apply Rmult_integral in H. destruct H; [contradiction|assumption].
  - intros Hd ->. assert (d * wA = 0) by lra. apply Rmult_integral in H. destruct H; [contradiction|assumption].
Qed.
Print Assumptions C71_gap.

(** Two sites with hopping -4 and a mass term of 3: the energy 5 with the state (2, -1). *)
Definition dimer : hsys CX vec3 :=
  HSys [Elem 0 1 1; Elem 1 1 1] [v0; v0] [(Nm 0, Mat 1 1 (fun _ _ => re 0)); (Nm 1, Mat 1 1 (fun _ _ => re 0))]
    [(Nm 0, Mat 1 1 (fun _ _ => re (-4)))] (HB 2 [[(0, 1)]])%nat [].
Example C71_example : exists m1, ham_make 10 complex_type dimer [mass_term 3] [] (fun p _ => p) (fun _ => k1) true = Ok m1 /\
  wf_hsys dimer /\ bipartite dimer /\ single_orbital dimer /\ simple_bonds dimer /\ cap_fits CX vec3 dimer 10 /\
  let v := fun s : nat => if (s =? 0)%nat then re 2 else re (-1) in
  eigen 2 (coeff m1) 5 v /\ weight 2 (on_A dimer) true v = 4 /\ weight 2 (on_A dimer) false v = 1.
Proof.
  assert (W : wf_hsys dimer).
  { split; [reflexivity|]. split; [reflexivity|]. split; [intros e [<-|[<-|[]]]; cbn; lia|]. split; [|intros b []].
    split; [cbn; lia|]. intros f c H. cbn in H. destruct H as [H|[]]; injection H as <- <-; cbn; lia. }
  assert (B : bipartite dimer).
  { split; [|split].
    - intros s Hs. cbn in Hs. destruct s as [|[|s]]; [left; reflexivity|right; reflexivity|lia].
    - intros h f c [->|[]] Hin. cbn in Hin. destruct Hin as [Hin|[]]; injection Hin as <- <-. cbn. discriminate.
    - intros e [<-|[<-|[]]]; reflexivity. }
  assert (O : single_orbital dimer) by (intros e [<-|[<-|[]]]; reflexivity).
  assert (C : cap_fits CX vec3 dimer 10).
  { intros h [->|[]] f c H. cbn in H. destruct H as [H|[]]; injection H as <- <-; cbn; lia. }
  assert (S : simple_bonds dimer) by (unfold simple_bonds; cbn; repeat constructor; cbn; intuition congruence).
  destruct (mass_elements dimer [] [] (fun p _ => p) (fun _ => k1) true 10 W (Forall2_nil _) C (fun _ => S) O 3) as (m0 & m1 & _ & E1 & P0 & P1).
  exists m1. split; [exact E1|]. do 5 (split; [assumption|]). intros v.
  cbn [dimer hs_subs rle_size fold_left e_num Nat.add] in P0, P1.
  split; [|split].
  - intros s Hs. cbn [seq]. rewrite !ksum_cons, ksum_nil. rewrite !P1, !P0 by lia.
    destruct s as [|[|s]]; [| |lia]; cbv -[Rplus Rmult Ropp IZR Rminus]; f_equal; ring.
  - cbv -[Rplus Rmult Ropp IZR Rminus]. ring.
  - cbv -[Rplus Rmult Ropp IZR Rminus]. ring.
Qed.
