(* The kernel polynomial results collected: every choice of algorithm and matrix format, the
   gathering of random vectors and target columns by threads, argument checks. *)
From Verif Require Import Base Scalar Kpm KpmSpec KpmVec KpmLoops KpmOptimized KpmCheb KpmCore KpmEnd KpmEll KpmEllProofs KpmBatch KpmBatchProofs.
From Coq Require Import Ring Ascii String.

(** The matrix formats of Config.hpp:6-7 with the two builds of the ELLPACK kernels. *)
Inductive format := Csr | EllGeneric | EllSimd (aligned : nat -> bool) (step : nat).

Section Final.
  Variable R : scalar.
  Add Ring Rring : (k_ring R).
  Variable half : R.
  Hypothesis Hhalf : kadd half half = k1.
  Variable inv_a b : R.
  Local Open Scope k_scope.
  Local Notation csr := (list (list (nat * R))).

  Definition format_kernel (f : format) (m : csr) : kernel R :=
    match f with
    | Csr => csr_kernel half m
    | EllGeneric => ell_kernel_generic R half m
    | EllSimd aligned step => ell_kernel_simd R half aligned step m
    end.

  (** What an algorithm and a format need: reordering needs a connected symmetric pattern, the
      vectorised ELLPACK kernel a matrix that is not zero. *)
  Definition usable (N : nat) (h : csr) (al : algorithm) (f : format) : Prop :=
    (al_size al || al_inter al = true -> sym_pattern h /\ connected N h)
    /\ (forall aligned step, f = EllSimd aligned step ->
          0 < step /\ exists i j, i < N /\ j < N /\ scaled_dense inv_a b (coef h) i j <> k0).

  Definition strict_of (f : format) : bool := match f with EllSimd _ _ => true | _ => false end.

  Lemma wf_in_range : forall N (m : csr), wf_csr N m -> in_range R m N.
  Proof. intros N m (H1 & H2 & _). split; auto. Qed.

  Lemma format_ok : forall f, (forall aligned step, f = EllSimd aligned step -> 0 < step) ->
    kernels_ok R half (format_kernel f) (strict_of f).
  Proof.
    intros f Hf N m Hw HN Hs. apply wf_in_range in Hw. destruct f; cbn [format_kernel].
    - apply csr_kernel_ok; auto.
    - apply ell_generic_kernel_ok; auto.
    - apply ell_simd_kernel_ok; auto. eapply Hf. reflexivity.
  Qed.

  Section One.
    Variable N : nat.
    Variable h : csr.
    Hypothesis HN : 0 < N.
    Hypothesis Hwf : wf_csr N h.
    Local Notation X := (scaled_dense inv_a b (coef h)).
    Variable al : algorithm.
    Variable f : format.
    Hypothesis Hu : usable N h al f.

    Lemma u_kernels : kernels_ok R half (format_kernel f) (strict_of f).
    Proof. apply format_ok. intros a s E. apply (proj2 Hu a s E). Qed.
    Lemma u_nz : strict_of f = true -> exists i j, i < N /\ j < N /\ X i j <> k0.
    Proof. destruct f as [| |a s] eqn:E; cbn; try discriminate. intros _. apply (proj2 Hu a s). auto. Qed.
    Lemma u_opt : options_ok R N h al.
    Proof. exact (proj1 Hu). Qed.

    Lemma f_moments : forall g num alpha beta op, (0 <= num)%Z ->
      List.length alpha = N -> beta = [] \/ List.length beta = N -> (forall o, op = Some o -> in_range R o N) ->
      (beta = [] -> op = None -> hermitian N X) ->
      exists r, round_num_moments num = Some r /\
      core_moments R half inv_a b (format_kernel f) g h al num alpha beta op
      = Ok (map (fun n => halved half n (braket N (vec (bra R alpha beta)) (dmul N (op_value R op) (cheb N X n)) (vec alpha)) * g (Z.to_nat r) n)
                (seq 0 (Z.to_nat num))).
    Proof.
      intros g num alpha beta op Hn Ha Hb Ho Hh. destruct (round_ok num) as (r & Er & _). exists r. split; [auto|].
      rewrite (core_moments_ok R half Hhalf inv_a b _ _ u_kernels N h HN Hwf u_nz g al num alpha beta op Hn u_opt Ha Hb Ho Hh).
      rewrite Er. reflexivity.
    Qed.

    Lemma f_ldos : forall num idx, 2 <= num -> ((num - 2) mod 4 = 0)%nat -> idx <> [] -> (forall i, In i idx -> i < N) -> hermitian N X ->
      exists oh, ldos_start R inv_a b h al idx = Ok oh /\
        forall k s, nth_error idx k = Some s ->
          ldos_column R half (format_kernel f) h al num oh k = Ok (map (fun n => halved half n (cheb N X n s s)) (seq 0 num)).
    Proof. exact (fun num idx H1 H2 => ldos_ok R half Hhalf inv_a b _ _ u_kernels N h HN Hwf u_nz al num idx u_opt H1 H2). Qed.

    Lemma f_dos : forall num, 2 <= num -> ((num - 2) mod 4 = 0)%nat -> hermitian N X ->
      exists oh, optimize R inv_a b h (al_reorder al) (Indices [0%nat] [0%nat]) = Ok oh /\
        forall r, List.length r = N ->
          dos_column R half (format_kernel f) al num oh r
          = Ok (map (fun n => halved half n (braket N (vec r) (cheb N X n) (vec r))) (seq 0 num)).
    Proof. exact (fun num => dos_ok R half Hhalf inv_a b _ _ u_kernels N h HN Hwf u_nz al num u_opt). Qed.

    Lemma f_greens : forall num row cols, 2 <= num -> ((num - 2) mod 4 = 0)%nat -> row < N -> cols <> [] ->
      (forall c, In c cols -> c < N) -> hermitian N X ->
      core_greens R half inv_a b (format_kernel f) h al num row cols
      = Ok (map (fun c => map (fun n => halved half n (cheb N X n c row)) (seq 0 num)) cols).
    Proof.
      intros num row cols H1 H2 H3 H4 H5 H6.
      exact (core_greens_ok R half Hhalf inv_a b _ _ u_kernels N h HN Hwf u_nz al num row cols u_opt H1 H2 H3 H4 H5 (fun _ => H6)).
    Qed.

    Lemma f_conductivity : forall num left right, 2 <= num -> ((num - 2) mod 4 = 0)%nat ->
      in_range R left N -> in_range R right N ->
      exists oh, optimize R inv_a b h (al_reorder al) (Indices [0%nat] [0%nat]) = Ok oh /\
        forall r, List.length r = N ->
          exists mu, conductivity_term R half (format_kernel f) al num oh left right r = Ok mu /\
            List.length mu = num /\ forall n, n < num -> List.length (nth n mu []) = num /\ forall m, m < num ->
              nth m (nth n mu []) k0
              = halved half n (halved half m
                  (inner R N (ap R N (coef right) (ap R N (cheb N X m) (vec r)))
                             (ap R N (cheb N X n) (ap R N (coef left) (vec r))))).
    Proof. exact (fun num left right H1 H2 => conductivity_ok R half Hhalf inv_a b _ _ u_kernels N h HN Hwf u_nz al num left right u_opt H1 H2). Qed.

    (** Threads: the moments of every start vector, averaged. *)
    Lemma f_dos_threads : forall num (r : nat -> list R) bs v inv_v threads d oh s, 2 <= num -> ((num - 2) mod 4 = 0)%nat -> hermitian N X ->
      (forall k, List.length (r k) = N) -> 0 < bs -> 0 < v -> (v = 1 -> inv_v = k1)%nat ->
      optimize R inv_a b h (al_reorder al) (Indices [0%nat] [0%nat]) = Ok oh ->
      let mom k := match dos_column R half (format_kernel f) al num oh (r k) with Ok l => l | _ => [] end in
      reach R bs mom (accumulator R) (accumulate R num v inv_v) (start bs v (accumulator R) threads (0%nat, d)) s ->
      finished (accumulator R) s ->
      snd (st_coll s) = DVec (map (fun n => inv_v * ksum (fun k => halved half n (braket N (vec (r k)) (cheb N X n) (vec (r k)))) (seq 0 v)) (seq 0 num)).
    Proof.
      intros num r bs v inv_v threads d oh s H1 H2 Hh Hr Hb Hv Hi Eo mom HR HF.
      destruct (f_dos num H1 H2 Hh) as (oh' & E' & D). rewrite Eo in E'. injection E' as <-.
      assert (Em : forall k, mom k = map (fun n => halved half n (braket N (vec (r k)) (cheb N X n) (vec (r k)))) (seq 0 num)).
      { intros k. unfold mom. rewrite D; auto. }
      assert (Lm : forall k, List.length (mom k) = num) by (intros k; rewrite Em, map_length, seq_length; auto).
      destruct (accumulate_result R bs num v inv_v mom Hb Hv Lm threads d s HR) as (_ & F). destruct (F HF) as (l & El & Ll & Nl).
      rewrite El. apply f_equal. apply (nth_ext _ _ k0 k0); [rewrite map_length, seq_length; auto|].
      intros n Hn. rewrite Ll in Hn. rewrite Nl. symmetry. erewrite (nth_indep _ k0 _) by (rewrite map_length, seq_length; exact Hn).
      rewrite (map_nth (fun n => inv_v * ksum (fun k => halved half n (braket N (vec (r k)) (cheb N X n) (vec (r k)))) (seq 0 v)) (seq 0 num) 0%nat n).
      rewrite seq_nth by auto. cbn [Nat.add]. apply f_equal2.
      - unfold scale. destruct (Nat.eqb_spec v 1); auto.
      - apply ksum_ext. intros k _. unfold val. rewrite Em. symmetry. erewrite (nth_indep _ k0 _) by (rewrite map_length, seq_length; exact Hn).
        rewrite (map_nth (fun n => halved half n (braket N (vec (r k)) (cheb N X n) (vec (r k)))) (seq 0 num) 0%nat n). rewrite seq_nth by auto. reflexivity.
    Qed.

    Lemma f_ldos_threads : forall num idx bs threads d oh s, 2 <= num -> ((num - 2) mod 4 = 0)%nat -> hermitian N X ->
      idx <> [] -> (forall i, In i idx -> i < N) -> 0 < bs ->
      ldos_start R inv_a b h al idx = Ok oh ->
      let mom k := match ldos_column R half (format_kernel f) h al num oh k with Ok l => l | _ => [] end in
      reach R bs mom (concatenator R) (concatenate R (List.length idx)) (start bs (List.length idx) (concatenator R) threads (0%nat, d)) s ->
      finished (concatenator R) s ->
      snd (st_coll s) = Some (map (fun t => Some (map (fun n => halved half n (cheb N X n t t)) (seq 0 num))) idx).
    Proof.
      intros num idx bs threads d oh s H1 H2 Hh Hne Hi Hb Eo mom HR HF.
      destruct (f_ldos num idx H1 H2 Hne Hi Hh) as (oh' & E' & D). rewrite Eo in E'. injection E' as <-.
      assert (Hv : 0 < List.length idx) by (destruct idx; [congruence|cbn; lia]).
      destruct (concatenate_result R bs (List.length idx) mom Hb Hv threads d s HR) as (_ & F). destruct (F HF) as (cols & Ec & Lc & Nc).
      rewrite Ec. apply f_equal.
      assert (G : forall k, nth_error cols k = nth_error (map (fun t => Some (map (fun n => halved half n (cheb N X n t t)) (seq 0 num))) idx) k).
      { intros k. destruct (Nat.lt_ge_cases k (List.length idx)) as [Hk|Hk].
        - rewrite (Nc k Hk). destruct (nth_error idx k) as [t|] eqn:Et; [|apply nth_error_None in Et; lia].
          rewrite (map_nth_error _ _ _ Et). unfold mom. rewrite (D k t Et). reflexivity.
        - rewrite (proj2 (nth_error_None _ _)) by lia. symmetry. apply nth_error_None. rewrite map_length. lia. }
      clear - G. revert cols G. generalize (map (fun t => Some (map (fun n => halved half n (cheb N X n t t)) (seq 0 num))) idx) as l.
      induction l as [|x l IH]; intros [|y cols] G; auto.
      - discriminate (G 0%nat).
      - discriminate (G 0%nat).
      - pose proof (G 0%nat) as E0. injection E0 as ->. f_equal. apply IH. intros k. exact (G (S k)).
    Qed.
  End One.

  (** ** Reordering *)
  Lemma slices_ok : forall N (h : csr) idx, wf_csr N h -> sym_pattern h -> connected N h -> ix_src idx <> [] -> ix_dest idx <> [] ->
    (forall i, In i (ix_src idx) -> i < N) -> (forall i, In i (ix_dest idx) -> i < N) ->
    exists oh pi, optimize R inv_a b h true idx = Ok oh /\
      (forall i, i < N -> pi i < N) /\ (forall i j, i < N -> j < N -> pi i = pi j -> i = j) /\
      pi (nth 0 (ix_src idx) 0%nat) = 0%nat /\
      oh_reorder oh = map (fun i => Some (pi i)) (seq 0 N) /\
      wf_csr N (oh_matrix oh) /\
      (forall i j, i < N -> j < N -> coef (oh_matrix oh) (pi i) (pi j) = (k1 + k1) * scaled_dense inv_a b (coef h) i j) /\
      oh_idx oh = Indices (map pi (ix_src idx)) (map pi (ix_dest idx)) /\
      (forall i, i < N -> exists k, distance h (nth 0 (ix_src idx) 0%nat) i k /\ k < List.length (sm_data (oh_map oh)) /\
          pi i < nth k (sm_data (oh_map oh)) 0%nat /\ (forall p, k = S p -> nth p (sm_data (oh_map oh)) 0%nat <= pi i)) /\
      nth (List.length (sm_data (oh_map oh)) - 1)%nat (sm_data (oh_map oh)) 0%nat = N /\
      (forall k, S k < List.length (sm_data (oh_map oh)) -> nth k (sm_data (oh_map oh)) 0%nat < nth (S k) (sm_data (oh_map oh)) 0%nat) /\
      (forall i j k l, i < N -> linked (oh_matrix oh) i j ->
         k < List.length (sm_data (oh_map oh)) -> l < List.length (sm_data (oh_map oh)) ->
         i < nth k (sm_data (oh_map oh)) 0%nat -> (forall p, l = S p -> nth p (sm_data (oh_map oh)) 0%nat <= i) ->
         (S k < List.length (sm_data (oh_map oh)) -> j < nth (S k) (sm_data (oh_map oh)) 0%nat) /\
         (forall p, l = S (S p) -> nth p (sm_data (oh_map oh)) 0%nat <= j)).
  Proof.
    intros N h idx Hw Hs Hc Hsn Hdn Hsr Hdr.
    destruct (create_reordered_ok R inv_a b N h idx Hw Hs Hc Hsn Hdn Hsr Hdr) as (oh & pi & E & Rp & Ro & P0 & Dist).
    exists oh, pi. split; [exact E|]. destruct Rp as [(Rl & Ri) Rx Rw Rc (L0 & L1 & L2 & L3) _ _ _].
    split; [exact Rl|]. split; [exact Ri|]. split; [exact P0|]. split; [exact Ro|]. split; [exact Rw|]. split; [exact Rc|]. split; [exact Rx|].
    set (d := sm_data (oh_map oh)) in *.
    assert (FA : forall i k, k < List.length d -> (i < nth k d 0%nat <-> layer (oh_map oh) i <= k)).
    { intros i k Hk. unfold layer. fold d. apply first_above_spec; auto. }
    assert (Hd : 0 < List.length d) by (destruct d; [congruence|cbn; lia]).
    assert (LB : forall i, i < N -> layer (oh_map oh) i < List.length d).
    { intros i Hi. assert (G := proj1 (FA i (List.length d - 1)%nat ltac:(lia)) ltac:(lia)). lia. }
    split.
    { intros i Hi. exists (layer (oh_map oh) (pi i)). split; [apply Dist; auto|]. split; [apply LB; auto|].
      split; [apply FA; [apply LB; auto|auto]|]. intros p Ep. destruct (Nat.lt_ge_cases (pi i) (nth p d 0%nat)) as [G|G]; [|exact G].
      apply FA in G; [lia|]. assert (LBi := LB (pi i) (Rl i Hi)). lia. }
    split; [exact L2|]. split; [exact L1|].
    intros i j k l Hi Hj Hk Hl Hik Hil. unfold linked in Hj. apply in_map_iff in Hj. destruct Hj as ((j' & v) & Ej & He). cbn in Ej. subst j'.
    destruct (L3 i (j, v) Hi He) as (A1 & A2). cbn in A1, A2. split.
    - intros Hk'. apply FA; auto. apply FA in Hik; auto. lia.
    - intros p Ep. subst l. destruct (Nat.lt_ge_cases j (nth p d 0%nat)) as [G|G]; [|exact G]. exfalso.
      assert (Gp : layer (oh_map oh) j <= p) by (apply FA; [lia|exact G]).
      assert (Gi : ~ (i < nth (S p) d 0%nat)) by (specialize (Hil (S p) eq_refl); lia).
      apply Gi. apply FA; [lia|]. lia.
  Qed.

  (** ** Green's functions of real symmetric matrices *)
  Lemma cheb_comm : forall N (X : dmat R) n i j, i < N -> j < N -> dmul N X (cheb N X n) i j = dmul N (cheb N X n) X i j.
  Proof.
    intros N X. assert (P : forall n, (forall i j, i < N -> j < N -> dmul N X (cheb N X n) i j = dmul N (cheb N X n) X i j) /\
                              (forall i j, i < N -> j < N -> dmul N X (cheb N X (S n)) i j = dmul N (cheb N X (S n)) X i j)).
    { induction n as [|n (IH0 & IH1)].
      - split; [|reflexivity]. intros i j Hi Hj. cbn [cheb]. unfold dmul.
        rewrite (ksum_single R (fun k => X i k * delta k j) N j); auto.
        + rewrite (ksum_single R (fun k => delta i k * X k j) N i); auto.
          * unfold delta. rewrite !Nat.eqb_refl. ring.
          * intros k Hk Hne. unfold delta. destruct (Nat.eqb_spec i k); [congruence|ring].
        + intros k Hk Hne. unfold delta. destruct (Nat.eqb_spec k j); [congruence|ring].
      - split; [exact IH1|]. intros i j Hi Hj. unfold dmul at 1 2.
        assert (E : forall a c, cheb N X (S (S n)) a c = (k1 + k1) * dmul N X (cheb N X (S n)) a c - cheb N X n a c) by reflexivity.
        rewrite (ksum_ext R (fun k => X i k * cheb N X (S (S n)) k j)
                   (fun k => (k1 + k1) * (X i k * dmul N X (cheb N X (S n)) k j) + kopp k1 * (X i k * cheb N X n k j))) by (intros k _; rewrite E; ring).
        rewrite (ksum_ext R (fun k => cheb N X (S (S n)) i k * X k j)
                   (fun k => (k1 + k1) * (dmul N X (cheb N X (S n)) i k * X k j) + kopp k1 * (cheb N X n i k * X k j))) by (intros k _; rewrite E; ring).
        rewrite !ksum_add, !ksum_mul_l. change (ksum (fun k => X i k * cheb N X n k j) (seq 0 N)) with (dmul N X (cheb N X n) i j).
        change (ksum (fun k => cheb N X n i k * X k j) (seq 0 N)) with (dmul N (cheb N X n) X i j). rewrite IH0 by auto.
        apply f_equal2; [|reflexivity]. apply f_equal.
        (* X (X T) = (X T) X *)
        rewrite (ksum_ext R (fun k => X i k * dmul N X (cheb N X (S n)) k j) (fun k => X i k * dmul N (cheb N X (S n)) X k j)).
        2:{ intros k Hk. apply in_seq in Hk. rewrite IH1 by lia. reflexivity. }
        unfold dmul.
        rewrite (ksum_ext R (fun k => X i k * ksum (fun l => cheb N X (S n) k l * X l j) (seq 0 N))
                            (fun k => ksum (fun l => X i k * cheb N X (S n) k l * X l j) (seq 0 N))).
        2:{ intros k _. rewrite <- ksum_mul_l. apply ksum_ext. intros l _. ring. }
        rewrite ksum_swap. apply ksum_ext. intros l _. rewrite <- ksum_mul_r. reflexivity. }
    intros n. apply P.
  Qed.

  Lemma cheb_sym : forall N (X : dmat R), (forall i j, i < N -> j < N -> X i j = X j i) -> forall n i j, i < N -> j < N -> cheb N X n i j = cheb N X n j i.
  Proof.
    intros N X HX. assert (P : forall n, (forall i j, i < N -> j < N -> cheb N X n i j = cheb N X n j i) /\
                                   (forall i j, i < N -> j < N -> cheb N X (S n) i j = cheb N X (S n) j i)).
    { induction n as [|n (IH0 & IH1)].
      - split; [|exact HX]. intros i j _ _. cbn [cheb]. unfold delta. rewrite Nat.eqb_sym. reflexivity.
      - split; [exact IH1|]. intros i j Hi Hj.
        assert (E : forall a c, cheb N X (S (S n)) a c = (k1 + k1) * dmul N X (cheb N X (S n)) a c - cheb N X n a c) by reflexivity.
        rewrite !E, (IH0 i j) by auto. apply f_equal2; [|reflexivity]. apply f_equal. rewrite (cheb_comm N X (S n) j i) by auto.
        unfold dmul. apply ksum_ext. intros k Hk. apply in_seq in Hk. rewrite (HX i k), (IH1 k j) by lia. ring. }
    intros n. apply P.
  Qed.

  (** The checks of [calc_greens]: negative or larger than the size throws. *)
  Lemma greens_rejected : forall kr_of (h : csr) al num row col,
    (row < 0 \/ Z.of_nat (List.length h) < row \/ col < 0 \/ Z.of_nat (List.length h) < col)%Z ->
    kpm_greens R half inv_a b kr_of h al num row col = Throw.
  Proof.
    intros kr_of h al num row col H. unfold kpm_greens, kpm_greens_vector. cbn [existsb]. unfold greens_index_error.
    assert (E : (((row <? 0) || (row >? Z.of_nat (List.length h))) || (((col <? 0) || (col >? Z.of_nat (List.length h))) || false))%Z%bool = true).
    { rewrite !orb_true_iff, !Z.ltb_lt, !Z.gtb_lt. tauto. }
    rewrite E. reflexivity.
  Qed.
  Lemma greens_element : forall N (h : csr) al f num row col, 0 < N -> wf_csr N h -> usable N h al f ->
    2 <= num -> ((num - 2) mod 4 = 0)%nat -> hermitian N (scaled_dense inv_a b (coef h)) -> row < N -> col < N ->
    kpm_greens R half inv_a b (format_kernel f) h al num (Z.of_nat row) (Z.of_nat col)
    = Ok (map (fun n => halved half n (cheb N (scaled_dense inv_a b (coef h)) n col row)) (seq 0 num)).
  Proof.
    intros N h al f num row col HN Hw Hu H1 H2 Hh Hr Hc. unfold kpm_greens, kpm_greens_vector. cbn [existsb map]. unfold greens_index_error.
    rewrite (proj1 Hw).
    assert (E : (((Z.of_nat row <? 0) || (Z.of_nat row >? Z.of_nat N)) || (((Z.of_nat col <? 0) || (Z.of_nat col >? Z.of_nat N)) || false))%Z%bool = false).
    { rewrite !orb_false_iff, !Z.ltb_ge. repeat split; try lia; rewrite Z.gtb_ltb; apply Z.ltb_ge; lia. }
    rewrite E, !Nat2Z.id.
    rewrite (f_greens N h HN Hw al f Hu num row [col] H1 H2 Hr ltac:(discriminate)) ; auto.
    intros c [<-|[]]; auto.
  Qed.
End Final.

(** ** Direction strings *)
Definition is_xyz (c : ascii) : bool := (Ascii.eqb c "x" || Ascii.eqb c "y" || Ascii.eqb c "z")%bool.
Definition axis (c : ascii) : nat := if Ascii.eqb c "x" then 0 else if Ascii.eqb c "y" then 1 else 2.

Lemma rejected_two : forall c0 c1, direction_rejected (String c0 (String c1 EmptyString)) = negb (is_xyz c0 || is_xyz c1).
Proof.
  intros c0 c1. unfold direction_rejected, is_xyz, in_string. cbn [String.length list_ascii_of_string existsb Nat.eqb negb orb].
  rewrite !(Ascii.eqb_sym "x"), !(Ascii.eqb_sym "y"), !(Ascii.eqb_sym "z").
  destruct (Ascii.eqb c0 "x"), (Ascii.eqb c0 "y"), (Ascii.eqb c0 "z"), (Ascii.eqb c1 "x"), (Ascii.eqb c1 "y"), (Ascii.eqb c1 "z"); reflexivity.
Qed.
Lemma axis_of_ok : forall c, axis_of c = if is_xyz c then Ok (axis c) else UB.
Proof.
  intros c. unfold axis_of, is_xyz, axis. destruct (Ascii.eqb c "x"), (Ascii.eqb c "y"), (Ascii.eqb c "z"); reflexivity.
Qed.
Lemma directions_complete : forall d,
  conductivity_axes d =
  match d with
  | String c0 (String c1 EmptyString) =>
      if is_xyz c0 && is_xyz c1 then Ok (axis c0, axis c1) else if is_xyz c0 || is_xyz c1 then UB else Throw
  | _ => Throw
  end.
Proof.
  intros [|c0 [|c1 [|c2 d]]]; try reflexivity. unfold conductivity_axes. rewrite rejected_two. cbn [list_ascii_of_string].
  rewrite !axis_of_ok. destruct (is_xyz c0), (is_xyz c1); reflexivity.
Qed.
