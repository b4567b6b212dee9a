(* End-to-end results for the kernel polynomial calculations of KpmCore.v. *)
From Verif Require Import Base Scalar Kpm KpmSpec KpmVec KpmLoops KpmMoments KpmReorder KpmOptimized KpmCheb KpmCore KpmRun.
From Coq Require Import Ring Permutation.

(** ** Number of moments *)
Lemma round_loop_spec : forall fuel n, (2 <= n)%Z -> (exists k, (0 <= k < Z.of_nat fuel)%Z /\ ((n + k - 2) mod 4 = 0)%Z) ->
  exists r, round_loop fuel n = Some r /\ (n <= r)%Z /\ ((r - 2) mod 4 = 0)%Z
    /\ (forall r', (n <= r')%Z -> ((r' - 2) mod 4 = 0)%Z -> (r <= r')%Z).
Proof.
  induction fuel as [|fuel IH]; intros n Hn (k & Hk & Hm); [lia|]. cbn [round_loop].
  rewrite Z.rem_mod_nonneg by lia. destruct (Z.eqb_spec ((n - 2) mod 4) 0) as [E|E].
  - exists n. repeat split; auto; try lia.
  - destruct (IH (n + 1)%Z ltac:(lia)) as (r & Er & Hr & Hrm & Hmin).
    { exists (k - 1)%Z. assert (k <> 0)%Z by (intros ->; rewrite Z.add_0_r in Hm; auto).
      split; [lia|]. replace (n + 1 + (k - 1) - 2)%Z with (n + k - 2)%Z by lia. auto. }
    exists r. split; auto. split; [lia|]. split; auto. intros r' H1 H2. apply Hmin; auto.
    assert (r' <> n) by (intros ->; auto). lia.
Qed.
Lemma round_ok : forall n, exists r, round_num_moments n = Some r /\ (n <= r)%Z /\ (2 <= r)%Z /\ ((r - 2) mod 4 = 0)%Z
  /\ (forall r', (n <= r')%Z -> (2 <= r')%Z -> ((r' - 2) mod 4 = 0)%Z -> (r <= r')%Z).
Proof.
  intros n. unfold round_num_moments. destruct (Z.ltb_spec n 2) as [H|H].
  - exists 2%Z. repeat split; try lia; auto.
  - destruct (round_loop_spec round_fuel n H) as (r & Er & Hr & Hm & Hmin).
    { exists ((- (n - 2)) mod 4)%Z. split; [unfold round_fuel; pose proof (Z.mod_pos_bound (- (n - 2)) 4 ltac:(lia)); lia|].
      replace (n + - (n - 2) mod 4 - 2)%Z with ((n - 2) + (- (n - 2)) mod 4)%Z by lia.
      rewrite Z.add_mod_idemp_r by lia. replace (n - 2 + - (n - 2))%Z with 0%Z by lia. reflexivity. }
    exists r. repeat split; auto; try lia.
Qed.
Lemma round_nat : forall n r, round_num_moments n = Some r ->
  2 <= Z.to_nat r /\ (Z.to_nat r - 2) mod 4 = 0 /\ (n <= Z.of_nat (Z.to_nat r))%Z.
Proof.
  intros n r E. destruct (round_ok n) as (r' & E' & H1 & H2 & H3 & _). rewrite E in E'. injection E' as <-.
  split; [lia|]. split; [|lia]. apply Nat2Z.inj. rewrite Nat2Z.inj_mod, Nat2Z.inj_sub, Z2Nat.id by lia. exact H3.
Qed.

Lemma even_of_mod4 : forall num, 2 <= num -> (num - 2) mod 4 = 0 -> Nat.even num = true.
Proof.
  intros num H Hm. apply Nat.even_spec. exists (1 + 2 * ((num - 2) / 4)). pose proof (Nat.div_mod (num - 2) 4 ltac:(lia)). lia.
Qed.

Lemma head_ok : forall {A} (l : list A) n, (0 <= n)%Z -> (n <= Z.of_nat (length l))%Z -> head l n = Ok (firstn (Z.to_nat n) l).
Proof. intros A l n H0 H. unfold head. destruct (Z.leb_spec 0 n), (Z.leb_spec n (Z.of_nat (length l))); try lia. reflexivity. Qed.
Lemma firstn_map_seq : forall {A} (f : nat -> A) k n, k <= n -> firstn k (map f (seq 0 n)) = map f (seq 0 k).
Proof.
  intros A f k n H. rewrite firstn_map. f_equal. replace n with (k + (n - k)) by lia. rewrite seq_app, firstn_app, seq_length.
  rewrite Nat.sub_diag, firstn_O, app_nil_r. apply firstn_all2. rewrite seq_length. auto.
Qed.

Section End.
  Variable R : scalar.
  Variable half : R.
  Hypothesis Hhalf : (half + half)%k = k1.
  Variable inv_a b : R.
  Variable kr_of : list (list (nat * R)) -> kernel R.
  Add Ring Rring : (k_ring R).
  Local Open Scope k_scope.
  Local Notation csr := (list (list (nat * R))).

  (** Either matrix format: the kernel of a well-formed matrix computes the reference. *)
  (** Whether the kernel is only right for a matrix with a stored entry (the vectorised ELLPACK one). *)
  Variable strict : bool.
  Definition kernels_ok : Prop := forall N m, wf_csr N m -> 0 < N -> (strict = true -> exists i, entries m i <> []) ->
    kernel_ok R half (kr_of m) m N.
  Hypothesis Hker : kernels_ok.

  Variable N : nat.
  Variable h : csr.
  Hypothesis HN : 0 < N.
  Hypothesis Hwf : wf_csr N h.
  Local Notation X := (scaled_dense inv_a b (coef h)).

  (** A strict kernel is used only when the scaled Hamiltonian is not zero. *)
  Hypothesis Hnz : strict = true -> exists i j, i < N /\ j < N /\ X i j <> k0.
  Lemma represents_entry : forall idx oh pi, represents R inv_a b N h idx oh pi -> strict = true -> exists i, entries (oh_matrix oh) i <> [].
  Proof.
    intros idx oh pi Hrep Hs. destruct (Hnz Hs) as (i & j & Hi & Hj & Hx). exists (pi i). intros E. apply Hx.
    pose proof (rp_coef _ _ _ _ _ _ _ _ Hrep i j Hi Hj) as C. unfold coef in C at 1. rewrite E in C. cbn in C.
    transitivity (half * ((k1 + k1) * X i j)); [transitivity ((half + half) * X i j); [rewrite Hhalf; ring|ring]|].
    rewrite <- C. ring.
  Qed.

  (** Requirements of the options: reordering needs a symmetric pattern and a connected system. *)
  Definition options_ok (al : algorithm) : Prop := al_reorder al = true -> sym_pattern h /\ connected N h.

  Lemma scaled_hermitian : hermitian N (coef h) -> kconj inv_a = inv_a -> kconj b = b -> hermitian N X.
  Proof.
    intros H Ha Hb i j Hi Hj. unfold scaled_dense. rewrite (kconj_mul R), kconj_sub, (kconj_mul R), Ha, Hb, H by auto.
    assert (E : kconj (delta i j) = delta j i :> R).
    { unfold delta. rewrite (Nat.eqb_sym j i). destruct (i =? j); [apply kconj_1|apply kconj_0]. }
    rewrite E. reflexivity.
  Qed.

  Lemma damp_map : forall g (f : nat -> R) n, damp R g (map f (seq 0 n)) = map (fun i => f i * g n i) (seq 0 n).
  Proof.
    intros g f n. unfold damp. rewrite map_length, seq_length.
    assert (G : forall l, combine l (map f l) = map (fun i => (i, f i)) l) by (induction l as [|x l IH]; cbn; [|rewrite IH]; auto).
    rewrite G, map_map. reflexivity.
  Qed.

  (** *** Generic moments *)
  Definition op_value (op : option csr) : dmat R := match op with Some o => coef o | None => delta end.
  Definition bra (alpha beta : list R) : list R := match beta with [] => alpha | _ => beta end.

  Lemma bra_delta : forall (A : dmat R) u v, braket N u (dmul N delta A) v = braket N u A v.
  Proof.
    intros A u v. rewrite <- !inner_braket. apply inner_ext; auto. intros i Hi. rewrite ap_dmul. apply ap_delta. auto.
  Qed.

  Lemma core_moments_ok : forall g al num alpha beta op, (0 <= num)%Z -> options_ok al ->
    length alpha = N -> (beta = [] \/ length beta = N) -> (forall o, op = Some o -> in_range R o N) ->
    (beta = [] -> op = None -> hermitian N X) ->
    core_moments R half inv_a b kr_of g h al num alpha beta op
    = match round_num_moments num with
      | Some r => Ok (map (fun n => halved half n (braket N (vec (bra alpha beta)) (dmul N (op_value op) (cheb N X n)) (vec alpha)) * g (Z.to_nat r) n)
                          (seq 0 (Z.to_nat num)))
      | None => UB
      end.
  Proof.
    intros g al num alpha beta op Hnum Hopt Ha Hb Hop Hherm. unfold core_moments.
    destruct (optimize_ok R inv_a b N h (al_reorder al) (Indices [0] [0]) Hwf Hopt HN) as (oh & pi & E & Hrep & Hre);
      cbn [ix_src ix_dest]; try discriminate; try (intros i [<- | []]; auto). rewrite E. cbn [obind].
    destruct (round_num_moments num) as [r|] eqn:Er; [|reflexivity]. destruct (round_nat num r Er) as (H2 & H4 & Hle).
    pose proof (rp_pi _ _ _ _ _ _ _ _ Hrep) as Hpi.
    destruct (reorder_vec_ok R N _ pi alpha Hpi Hre Ha) as (r0 & Er0 & L0 & V0). rewrite Er0. cbn [obind].
    pose proof (Hker N (oh_matrix oh) (rp_wf _ _ _ _ _ _ _ _ Hrep) HN (represents_entry _ _ _ Hrep)) as Hkr.
    assert (Hev : al_inter (no_size al) = true -> Nat.even (Z.to_nat r) = true) by (intros _; apply even_of_mod4; auto).
    assert (Hgen : obind (reorder_vec R (oh_reorder oh) (bra alpha beta)) (fun beta' =>
               obind (reorder_op R (oh_reorder oh) op) (fun op' =>
               run_generic R half (kr_of (oh_matrix oh)) (oh_map oh) (no_size al) (Z.to_nat r) beta' op' r0))
             = Ok (map (fun n => halved half n (braket N (vec (bra alpha beta)) (dmul N (op_value op) (cheb N X n)) (vec alpha))) (seq 0 (Z.to_nat r)))).
    { assert (Lb : length (bra alpha beta) = N) by (destruct Hb as [-> |Hb]; [exact Ha|destruct beta; auto]).
      destruct (reorder_vec_ok R N _ pi (bra alpha beta) Hpi Hre Lb) as (bt & Ebt & Lbt & Vbt). rewrite Ebt. cbn [obind].
      assert (Hmv : exists op', reorder_op R (oh_reorder oh) op = Ok op' /\ op_moved R N pi op op').
      { destruct op as [o|]; [|exists None; split; [reflexivity|exact I]].
        destruct (reorder_csr_ok R N _ pi o Hpi Hre (Hop o eq_refl)) as (o' & Eo & Lo & Po).
        exists (Some o'). unfold reorder_op. rewrite Eo. split; [reflexivity|]. split; [apply Hop; auto|]. split; auto. }
      destruct Hmv as (op' & Eop & Hmv). rewrite Eop. cbn [obind].
      rewrite (run_generic_ok R half Hhalf inv_a b N h _ oh pi Hrep _ Hkr (no_size al) (Z.to_nat r) (bra alpha beta) bt op op' r0 (vec alpha));
        auto. }
    set (go := fun ms => head (damp R g ms) num).
    assert (Hfin : forall f : nat -> R, go (map f (seq 0 (Z.to_nat r))) = Ok (map (fun n => f n * g (Z.to_nat r) n) (seq 0 (Z.to_nat num)))).
    { intros f. unfold go. rewrite damp_map, head_ok by (rewrite ?map_length, ?seq_length; lia).
      rewrite firstn_map_seq by lia. reflexivity. }
    destruct beta as [|b0 beta']; [destruct op as [o|]|].
    - cbn [bra] in *. rewrite Hgen. cbn [obind]. rewrite Hfin. reflexivity.
    - rewrite (run_diag_ok R half Hhalf inv_a b N h _ oh pi Hrep _ Hkr (no_size al) (Z.to_nat r) r0 (vec alpha));
        auto; try (intros; discriminate).
      cbn [obind]. rewrite Hfin. f_equal. apply map_ext. intros n. cbn [bra op_value]. rewrite bra_delta. reflexivity.
    - cbn [bra] in *. rewrite Hgen. cbn [obind]. rewrite Hfin. reflexivity.
  Qed.

  (** *** Unit start vectors *)
  Lemma unit_braket : forall (A : dmat R) s, s < N -> braket N (fun i => delta i s) A (fun i => delta i s) = A s s.
  Proof.
    intros A s Hs. rewrite <- inner_braket. unfold inner. rewrite (ksum_single R _ N s Hs).
    - unfold delta at 1. rewrite Nat.eqb_refl, kconj_1. unfold ap. rewrite (ksum_single R _ N s Hs).
      + unfold delta. rewrite Nat.eqb_refl. ring.
      + intros j _ Hne. unfold delta. destruct (Nat.eqb_spec j s); [congruence|ring].
    - intros j _ Hne. unfold delta at 1. destruct (Nat.eqb_spec j s); [congruence|]. rewrite kconj_0. ring.
  Qed.
  Lemma unit_ap : forall (A : dmat R) s d, s < N -> ap R N A (fun i => delta i s) d = A d s.
  Proof.
    intros A s d Hs. unfold ap. rewrite (ksum_single R _ N s Hs).
    - unfold delta. rewrite Nat.eqb_refl. ring.
    - intros j _ Hne. unfold delta. destruct (Nat.eqb_spec j s); [congruence|ring].
  Qed.
  Lemma unit_vector_ok : forall idx oh pi k s, represents R inv_a b N h idx oh pi -> nth_error (ix_src idx) k = Some s -> s < N ->
    exists r0, unit_vector R (length h) (ix_src (oh_idx oh)) k = Ok r0 /\ length r0 = N
      /\ (forall i, i < N -> vec r0 (pi i) = delta i s) /\ forall opt, on_sources R N oh opt r0.
  Proof.
    intros idx oh pi k s Hrep Hk Hs. pose proof (rp_pi _ _ _ _ _ _ _ _ Hrep) as Hpi. pose proof (proj1 Hwf) as HL.
    unfold unit_vector. rewrite (rp_idx _ _ _ _ _ _ _ _ Hrep). cbn [ix_src]. rewrite nth_error_map, Hk. cbn [option_map].
    assert (Hp : pi s < N) by (apply Hpi; auto). destruct (Nat.ltb_spec (pi s) (length h)); [|lia].
    assert (Hrl : length (repeat (k0 : R) (length h)) = N) by (rewrite repeat_length; auto).
    eexists. split; [reflexivity|]. split; [rewrite upd_length; auto|].
    assert (Hz : forall i, vec (repeat (k0 : R) (length h)) i = k0).
    { intros i. unfold vec. clear. revert i. induction (length h); intros [|i]; cbn; auto. }
    split.
    - intros i Hi. rewrite vec_upd by (rewrite Hrl; auto). rewrite Hz. unfold delta.
      destruct (Nat.eqb_spec (pi i) (pi s)) as [E|E], (Nat.eqb_spec i s) as [E'|E']; auto; [apply Hpi in E; auto; congruence|congruence].
    - intros opt _ i Hi Hl. rewrite vec_upd by (rewrite Hrl; auto). rewrite Hz.
      destruct (Nat.eqb_spec i (pi s)) as [-> |]; auto.
      assert (layer (oh_map oh) (pi s) <= sm_src (oh_map oh))%nat; [|lia].
      apply (rp_src _ _ _ _ _ _ _ _ Hrep). eapply nth_error_In; eauto.
  Qed.

  (** Local density of states: start vector [k] gives the moments of site [idx k]. *)
  Lemma ldos_ok : forall al num idx, options_ok al -> 2 <= num -> (num - 2) mod 4 = 0 -> idx <> [] ->
    (forall i, In i idx -> i < N) -> hermitian N X ->
    exists oh, ldos_start R inv_a b h al idx = Ok oh
      /\ forall k s, nth_error idx k = Some s ->
           ldos_column R half kr_of h al num oh k = Ok (map (fun n => halved half n (cheb N X n s s)) (seq 0 num)).
  Proof.
    intros al num idx Hopt H2 H4 Hne Hin HX. unfold ldos_start.
    destruct (optimize_ok R inv_a b N h (al_reorder al) (Indices idx idx) Hwf Hopt HN) as (oh & pi & E & Hrep & Hre);
      cbn [ix_src ix_dest]; auto. exists oh. split; auto. intros k s Hk.
    assert (Hs : s < N) by (apply Hin; eapply nth_error_In; eauto).
    destruct (unit_vector_ok (Indices idx idx) oh pi k s Hrep Hk Hs) as (r0 & E0 & L0 & V0 & S0).
    unfold ldos_column. rewrite E0. cbn [obind].
    pose proof (Hker N (oh_matrix oh) (rp_wf _ _ _ _ _ _ _ _ Hrep) HN (represents_entry _ _ _ Hrep)) as Hkr.
    rewrite (run_diag_ok R half Hhalf inv_a b N h _ oh pi Hrep _ Hkr al num r0 (fun i => delta i s)); auto.
    - f_equal. apply map_ext. intros n. rewrite unit_braket; auto.
    - intros _. apply (rp_diag _ _ _ _ _ _ _ _ Hrep). reflexivity.
  Qed.

  (** One random vector of the density of states. *)
  Lemma dos_ok : forall al num, options_ok al -> 2 <= num -> (num - 2) mod 4 = 0 -> hermitian N X ->
    exists oh, optimize R inv_a b h (al_reorder al) (Indices [0] [0]) = Ok oh
      /\ forall r, length r = N ->
           dos_column R half kr_of al num oh r = Ok (map (fun n => halved half n (braket N (vec r) (cheb N X n) (vec r))) (seq 0 num)).
  Proof.
    intros al num Hopt H2 H4 HX.
    destruct (optimize_ok R inv_a b N h (al_reorder al) (Indices [0] [0]) Hwf Hopt HN) as (oh & pi & E & Hrep & Hre);
      cbn [ix_src ix_dest]; try discriminate; try (intros i [<- | []]; auto). exists oh. split; auto. intros r Hr.
    pose proof (rp_pi _ _ _ _ _ _ _ _ Hrep) as Hpi. unfold dos_column.
    destruct (reorder_vec_ok R N _ pi r Hpi Hre Hr) as (r0 & Er0 & L0 & V0). rewrite Er0. cbn [obind].
    pose proof (Hker N (oh_matrix oh) (rp_wf _ _ _ _ _ _ _ _ Hrep) HN (represents_entry _ _ _ Hrep)) as Hkr.
    rewrite (run_diag_ok R half Hhalf inv_a b N h _ oh pi Hrep _ Hkr (no_size al) num r0 (vec r)); auto; intros; discriminate.
  Qed.

  (** Green's function moments: start at [row], read off at each of [cols]. *)
  Lemma nat_list_eqb_map : forall pi l1 l2, renumbering N pi -> (forall i, In i l1 -> i < N) -> (forall i, In i l2 -> i < N) ->
    nat_list_eqb (map pi l1) (map pi l2) = nat_list_eqb l1 l2.
  Proof.
    intros pi l1 l2 Hpi. revert l2. induction l1 as [|x l1 IH]; intros [|y l2] H1 H2; cbn; auto.
    rewrite IH by (intros; first [apply H1; right; solve [auto]|apply H2; right; solve [auto]]). f_equal.
    destruct (Nat.eqb_spec (pi x) (pi y)) as [E|E], (Nat.eqb_spec x y) as [E'|E']; auto; try congruence.
    apply Hpi in E; [congruence|apply H1|apply H2]; left; auto.
  Qed.

  Lemma core_greens_ok : forall al num row cols, options_ok al -> 2 <= num -> (num - 2) mod 4 = 0 ->
    row < N -> cols <> [] -> (forall c, In c cols -> c < N) -> (cols = [row] -> hermitian N X) ->
    core_greens R half inv_a b kr_of h al num row cols
    = Ok (map (fun c => map (fun n => halved half n (cheb N X n c row)) (seq 0 num)) cols).
  Proof.
    intros al num row cols Hopt H2 H4 Hrow Hne Hc HX. unfold core_greens.
    destruct (optimize_ok R inv_a b N h (al_reorder al) (Indices [row] cols) Hwf Hopt HN) as (oh & pi & E & Hrep & Hre);
      cbn [ix_src ix_dest]; auto; try discriminate; try (intros i [<- | []]; auto). rewrite E. cbn [obind].
    destruct (unit_vector_ok (Indices [row] cols) oh pi 0 row Hrep eq_refl Hrow) as (r0 & E0 & L0 & V0 & S0).
    rewrite E0. cbn [obind]. pose proof (rp_pi _ _ _ _ _ _ _ _ Hrep) as Hpi.
    pose proof (Hker N (oh_matrix oh) (rp_wf _ _ _ _ _ _ _ _ Hrep) HN (represents_entry _ _ _ Hrep)) as Hkr.
    destruct (is_diagonal (oh_idx oh)) eqn:Ed.
    - unfold is_diagonal in Ed. rewrite (rp_idx _ _ _ _ _ _ _ _ Hrep) in Ed. cbn [ix_src ix_dest] in Ed.
      rewrite nat_list_eqb_map in Ed by (auto; intros i [<- | []]; auto).
      assert (Ecols : cols = [row]).
      { destruct cols as [|c [|? ?]]; [discriminate| |cbn in Ed; rewrite andb_false_r in Ed; discriminate].
        cbn in Ed. rewrite andb_true_r in Ed. apply Nat.eqb_eq in Ed. congruence. }
      rewrite (run_diag_ok R half Hhalf inv_a b N h _ oh pi Hrep _ Hkr al num r0 (fun i => delta i row)); auto.
      + rewrite Ecols. unfold omap. cbn [obind map]. f_equal. f_equal. apply map_ext. intros n. rewrite unit_braket; auto.
      + intros _. apply (rp_diag _ _ _ _ _ _ _ _ Hrep). cbn. congruence.
    - rewrite (run_units_ok R half Hhalf inv_a b N h _ oh pi Hrep _ Hkr al num r0 (fun i => delta i row)); auto.
      + f_equal. apply map_ext. intros c. apply map_ext. intros n. rewrite unit_ap; auto.
      + intros _. apply even_of_mod4; auto.
  Qed.
  (** Conductivity moments: <r| T_m V_R^+ T_n V_L |r>. *)
  Lemma half_real : kconj half = half.
  Proof.
    assert (E : kconj half + kconj half = k1) by (rewrite <- (kconj_add R), Hhalf; apply kconj_1).
    assert (E1 : kconj half = kconj half * (half + half)) by (rewrite Hhalf; ring).
    assert (E2 : half = half * (kconj half + kconj half)) by (rewrite E; ring).
    transitivity (kconj half * (half + half)); [exact E1|]. transitivity (half * (kconj half + kconj half)); [ring|symmetry; exact E2].
  Qed.
  Lemma halved_conj : forall n x, kconj (halved half n x) = halved half n (kconj x).
  Proof. intros [|n] x; cbn [halved]; auto. rewrite (kconj_mul R), half_real. reflexivity. Qed.

  Lemma dot_adjoint : forall u v : list R, length u = length v ->
    ksum (fun p => fst p * kconj (snd p)) (combine u v) = ksum (fun i => vec u i * kconj (vec v i)) (seq 0 (length u)).
  Proof.
    intros u v HL. rewrite (list_as_map R u) at 1. rewrite (list_as_map R v) at 1. rewrite <- HL.
    assert (G : forall l, combine (map (vec u) l) (map (vec v) l) = map (fun i => (vec u i, vec v i)) l).
    { induction l as [|x l IH]; cbn; [|rewrite IH]; auto. }
    rewrite G, ksum_map. reflexivity.
  Qed.

  Lemma conductivity_ok : forall al num left right, options_ok al -> 2 <= num -> (num - 2) mod 4 = 0 ->
    in_range R left N -> in_range R right N ->
    exists oh, optimize R inv_a b h (al_reorder al) (Indices [0] [0]) = Ok oh
      /\ forall r, length r = N -> exists mu, conductivity_term R half kr_of al num oh left right r = Ok mu
        /\ length mu = num
        /\ forall n, n < num -> length (nth n mu []) = num
          /\ forall m, m < num -> nth m (nth n mu []) k0
               = halved half n (halved half m (inner R N (ap R N (coef right) (ap R N (cheb N X m) (vec r)))
                                                       (ap R N (cheb N X n) (ap R N (coef left) (vec r))))).
  Proof.
    intros al num left right Hopt H2 H4 Hlr Hrr.
    destruct (optimize_ok R inv_a b N h (al_reorder al) (Indices [0] [0]) Hwf Hopt HN) as (oh & pi & E & Hrep & Hre);
      cbn [ix_src ix_dest]; try discriminate; try (intros i [<- | []]; auto). exists oh. split; auto. intros r Hr.
    pose proof (rp_pi _ _ _ _ _ _ _ _ Hrep) as Hpi.
    pose proof (Hker N (oh_matrix oh) (rp_wf _ _ _ _ _ _ _ _ Hrep) HN (represents_entry _ _ _ Hrep)) as Hkr.
    assert (Hev : al_inter (no_size al) = true -> Nat.even num = true) by (intros _; apply even_of_mod4; auto).
    unfold conductivity_term.
    assert (Ll : length (csr_mul R left r) = N) by (unfold csr_mul; rewrite map_length; apply Hlr).
    destruct (reorder_vec_ok R N _ pi _ Hpi Hre Ll) as (rl & Erl & Lrl & Vrl). rewrite Erl. cbn [obind].
    assert (Vl : forall i, i < N -> vec rl (pi i) = ap R N (coef left) (vec r) i).
    { intros i Hi. rewrite Vrl, csr_mul_at by (auto; rewrite (proj1 Hlr); auto). apply act_ap. apply Hlr. }
    destruct (run_dense_ok R half Hhalf inv_a b N h _ oh pi Hrep _ Hkr (no_size al) num None None rl _ Hev H2 Lrl eq_refl Vl I)
      as (ml & Eml & Lml & Pml). match goal with |- context [run_dense R half ?k ?s ?a ?n ?o rl] => replace (run_dense R half k s a n o rl) with (Ok ml) by (symmetry; exact Eml) end. cbn [obind].
    destruct (reorder_vec_ok R N _ pi r Hpi Hre Hr) as (rr & Err & Lrr & Vrr). rewrite Err. cbn [obind].
    destruct (reorder_csr_ok R N _ pi right Hpi Hre Hrr) as (right' & Er' & Lr' & Pr'). rewrite Er'. cbn [obind].
    destruct (run_dense_ok R half Hhalf inv_a b N h _ oh pi Hrep _ Hkr (no_size al) num (Some right) (Some right') rr (vec r)
                Hev H2 Lrr eq_refl Vrr) as (mr & Emr & Lmr & Pmr); [split; [exact Hrr|split; auto]|].
    match goal with |- context [run_dense R half ?k ?s ?a ?n ?o rr] => replace (run_dense R half k s a n o rr) with (Ok mr) by (symmetry; exact Emr) end. cbn [obind]. eexists. split; [reflexivity|]. unfold mul_adjoint. split; [rewrite map_length; auto|].
    intros n Hn. set (row := fun u => map (fun v => ksum (fun p => fst p * kconj (snd p)) (combine u v)) mr).
    rewrite (nth_indep _ [] (row [])) by (rewrite map_length; lia). rewrite (map_nth row). unfold row.
    split; [rewrite map_length; auto|]. intros m Hm.
    set (el := fun v : list R => ksum (fun p => fst p * kconj (snd p)) (combine (nth n ml []) v)).
    rewrite (nth_indep _ k0 (el [])) by (rewrite map_length; lia). rewrite (map_nth el). unfold el.
    destruct (Pml n Hn) as (Ln & Vn). destruct (Pmr m Hm) as (Lm & Vm). rewrite dot_adjoint by congruence. rewrite Ln.
    rewrite (ksum_renumber R N pi _ Hpi).
    assert (Hh : forall n x y, halved half n (x * y) = x * halved half n y) by (intros [|?] x y; cbn [halved]; ring).
    transitivity (ksum (fun i => kconj (halved half m (ap R N (coef right) (ap R N (cheb N X m) (vec r)) i))
                                 * halved half n (ap R N (cheb N X n) (ap R N (coef left) (vec r)) i)) (seq 0 N)).
    { apply ksum_ext. intros i Hi. apply in_seq in Hi. rewrite Vn, Vm by lia. cbn [op_matrix]. rewrite ap_delta by lia. ring. }
    assert (Hs : forall n (f : nat -> R), ksum (fun i => halved half n (f i)) (seq 0 N) = halved half n (ksum f (seq 0 N))).
    { intros [|?] f; cbn [halved]; auto. rewrite ksum_mul_l. reflexivity. }
    unfold inner. rewrite <- Hs, <- Hs. apply ksum_ext. intros i _. rewrite halved_conj.
    assert (Hc : forall n (x y : R), halved half n x * y = halved half n (x * y)) by (intros [|?] x y; cbn [halved]; ring).
    rewrite Hc. assert (Hcomm : forall n m (x : R), halved half n (halved half m x) = halved half m (halved half n x)).
    { intros [|?] [|?] x; cbn [halved]; ring. }
    rewrite !Hh. f_equal. apply Hcomm.
  Qed.
End End.
