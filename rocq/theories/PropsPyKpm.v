(* C92: the KPM of Python and the KPM of C++ compute the same. *)
From Verif Require Import Base Scalar Blocks BlocksProofs Kpm KpmSpec KpmVec KpmMoments KpmCheb KpmGram KpmReorder KpmOptimized KpmCore KpmEll KpmFinal RSum Cplx Spectral SpectralProofs PropsSpectral PyKpm.
From Coq Require Import Reals Lra Ring.
Local Open Scope nat_scope.

Section Moments.
  Variable R : scalar.
  Variable half : R.
  Hypothesis Hhalf : kadd half half = k1.
  Variable inv_a b : R.
  Add Ring Rring92 : (k_ring R).
  Local Open Scope k_scope.
  Local Notation csr := (list (list (nat * R))).

  Definition py_row (r : nat) (row : list (nat * R)) : list (nat * R) :=
    map (fun e => (fst e, snd e * inverted_a R inv_a)) (filter (fun e => negb (keqb (snd e) k0)) (shifted_row R b r row)).
  Lemma py_entries : forall h i, i < length h -> entries (py_rescale R inv_a b h) i = py_row i (entries h i).
  Proof.
    intros h i Hi. unfold entries, py_rescale. fold (py_row).
    assert (L : length (combine (seq 0 (length h)) h) = length h) by (rewrite combine_length, seq_length; lia).
    rewrite (nth_indep _ [] (py_row (fst (0, @nil (nat * R))) (snd (0, @nil (nat * R))))) by (rewrite map_length, L; auto).
    change (map _ (combine (seq 0 (length h)) h)) with (map (fun p => py_row (fst p) (snd p)) (combine (seq 0 (length h)) h)).
    rewrite (map_nth (fun p => py_row (fst p) (snd p))), combine_nth by (rewrite seq_length; auto).
    cbn [fst snd]. rewrite seq_nth by auto. reflexivity.
  Qed.
  Lemma py_length : forall h, length (py_rescale R inv_a b h) = length h.
  Proof. intros h. unfold py_rescale. rewrite map_length, combine_length, seq_length. lia. Qed.

  Lemma filter_sum : forall j (l : list (nat * R)), ksum (fun e => if fst e =? j then snd e * inverted_a R inv_a else k0) (filter (fun e => negb (keqb (snd e) k0)) l)
    = ksum (fun e => if fst e =? j then snd e * inverted_a R inv_a else k0) l.
  Proof.
    intros j l. induction l as [|e l IH]; [reflexivity|]. cbn [filter]. rewrite ksum_cons. destruct (keqb (snd e) k0) eqn:E; cbn [negb].
    - apply (keqb_eq R) in E. rewrite IH, E. destruct (fst e =? j); ring.
    - rewrite ksum_cons, IH. reflexivity.
  Qed.

  Lemma shifted_in : forall N r row, r < N -> (forall e, In e row -> fst e < N) -> forall e, In e (shifted_row R b r row) -> fst e < N.
  Proof.
    intros N r row Hr H e He. unfold shifted_row in He.
    assert (D : forall e, In e (map (fun e : nat * R => (fst e, if fst e =? r then snd e - b else snd e)) row) -> fst e < N).
    { intros e' He'. apply in_map_iff in He'. destruct He' as (x & <- & Hx). cbn. auto. }
    destruct (has_col R r row); [auto|]. apply (Permutation.Permutation_in _ (row_insert_perm R _ _)) in He. destruct He as [<-|He]; auto.
  Qed.

  Lemma py_range : forall N h, wf_csr N h -> in_range R (py_rescale R inv_a b h) N.
  Proof.
    intros N h (HL & Hc & _). split; [rewrite py_length; exact HL|]. intros i e He.
    destruct (Nat.lt_ge_cases i N) as [Hi|Hi].
    - rewrite py_entries in He by lia. unfold py_row in He. apply in_map_iff in He. destruct He as (x & <- & Hx). cbn [fst].
      apply filter_In in Hx. destruct Hx as (Hx & _). apply (shifted_in N i (entries h i)); eauto.
    - unfold entries in He. rewrite nth_overflow in He by (rewrite py_length; lia). destruct He.
  Qed.

  Lemma py_coef : forall N h i j, wf_csr N h -> i < N ->
    coef (py_rescale R inv_a b h) i j = (k1 + k1) * scaled_dense inv_a b (coef h) i j.
  Proof.
    intros N h i j W Hi. pose proof W as (HL & Hc & Hnd). unfold coef at 1. rewrite py_entries by lia. unfold py_row.
    rewrite ksum_map. cbn [fst snd]. rewrite filter_sum. unfold scaled_dense, coef, inverted_a. set (l := entries h i).
    assert (S1 : ksum (fun e => if fst e =? j then snd e else k0) (shifted_row R b i l) = ksum (fun e => if fst e =? j then snd e else k0) l - b * delta i j).
    { assert (P : forall l0 : list (nat * R), NoDup (map fst l0) ->
        ksum (fun e : nat * R => if fst e =? j then snd e else k0) (map (fun e => (fst e, if fst e =? i then snd e - b else snd e)) l0)
        = ksum (fun e => if fst e =? j then snd e else k0) l0 - (if has_col R i l0 then b * delta i j else k0)).
      { intros l0. induction l0 as [|e l0 IH]; intros ND; [cbn; ring|]. cbn [map] in *. inversion ND as [|? ? NI ND']; subst. rewrite !ksum_cons, IH by auto. cbn [fst snd].
        unfold has_col. cbn [existsb]. fold (has_col R i l0). unfold delta.
        assert (HC : fst e = i -> has_col R i l0 = false).
        { intros <-. apply Bool.not_true_is_false. intros T. apply existsb_exists in T. destruct T as (x & Hx & Ex). apply Nat.eqb_eq in Ex. apply NI. rewrite <- Ex. now apply in_map. }
        destruct (Nat.eqb_spec (fst e) i) as [E|E]; [rewrite (HC E); subst i|]; cbn [orb]; destruct (Nat.eqb_spec (fst e) j); try (subst j); try ring;
          destruct (has_col R i l0); destruct (Nat.eqb_spec i (fst e)); try congruence; try ring; destruct (i =? j); ring. }
      unfold shifted_row. destruct (has_col R i l) eqn:EH; [rewrite P, EH by apply Hnd; reflexivity|].
      rewrite (ksum_perm R _ _ _ (row_insert_perm R (i, k0 - b) _)), ksum_cons, P, EH by apply Hnd. cbn [fst snd]. unfold delta. destruct (i =? j); ring. }
    transitivity (ksum (fun e : nat * R => (if fst e =? j then snd e else k0) * ((k1 + k1) * inv_a)) (shifted_row R b i l)).
    { apply ksum_ext. intros e _. destruct (fst e =? j); ring. }
    rewrite ksum_mul_r, S1. ring.
  Qed.

  Lemma csr_dot_ok : forall N m x, in_range R m N -> length x = N ->
    csr_dot R m x = Ok (map (act R m (vec x)) (seq 0 N)).
  Proof.
    intros N m x (HL & Hr) Hx. unfold csr_dot. rewrite (osequence_ok _ (fun row => ksum (fun e => snd e * vec x (fst e)) row)).
    - f_equal. apply (nth_ext _ _ (ksum (fun e => snd e * vec x (fst e)) []) (act R m (vec x) 0)); [rewrite !map_length, seq_length; lia|].
      intros k Hk. rewrite map_length in Hk. rewrite (map_nth (fun row => ksum (fun e => snd e * vec x (fst e)) row)), (map_nth (act R m (vec x))), seq_nth by lia. reflexivity.
    - intros row Hrow. apply row_mul_ok. destruct (In_nth _ _ [] Hrow) as (i & Hi & Ei). intros e He. rewrite Hx. apply (Hr i). unfold entries. now rewrite Ei.
  Qed.

  Section Run.
    Variable N : nat.
    Variable h : csr.
    Hypothesis W : wf_csr N h.
    Variable starter : list R.
    Hypothesis Hs : length starter = N.
    Let X := scaled_dense inv_a b (coef h).
    Hypothesis HX : hermitian N X.
    Let m := py_rescale R inv_a b h.
    Let t n := map (cv R N X (vec starter) n) (seq 0 N).
    Let mu n := halved half n (braket N (vec starter) (cheb N X n) (vec starter)).

    Lemma t_len : forall n, length (t n) = N. Proof. intros. unfold t. now rewrite map_length, seq_length. Qed.
    Lemma t_vec : forall n i, i < N -> vec (t n) i = cv R N X (vec starter) n i. Proof. intros. unfold t. now apply vec_map. Qed.
    Lemma t_0 : t 0 = starter.
    Proof. apply vec_ext; [rewrite t_len; auto|]. intros i Hi. rewrite t_len in Hi. rewrite t_vec by auto. reflexivity. Qed.
    Lemma dot_t : forall n k, dot R (t n) (t k) = inner R N (cv R N X (vec starter) n) (cv R N X (vec starter) k).
    Proof. intros. unfold t. rewrite dot_rows. reflexivity. Qed.
    Lemma act_t : forall n i, i < N -> act R m (vec (t n)) i = (k1 + k1) * ap R N X (cv R N X (vec starter) n) i.
    Proof.
      intros n i Hi. rewrite (act_ap R m N) by (apply (py_range N h W)). unfold ap. rewrite <- ksum_mul_l. apply ksum_ext. intros j Hj. apply in_seq in Hj.
      unfold m. rewrite (py_coef N h) by auto. fold X. rewrite t_vec by lia. ring.
    Qed.
    Lemma next_t : forall n, map (fun p => fst p - snd p) (combine (map (act R m (vec (t (S n)))) (seq 0 N)) (t n)) = t (S (S n)).
    Proof.
      intros n. set (l := combine _ _). assert (LL : length l = N) by (unfold l; rewrite combine_length, map_length, seq_length, t_len; lia).
      apply vec_ext; rewrite map_length, LL, ?t_len; auto.
      intros i Hi. rewrite t_vec by auto. unfold vec.
      rewrite (nth_indep _ k0 ((fun p => fst p - snd p) (k0, k0))) by (rewrite map_length, LL; exact Hi). rewrite (map_nth (fun p : R * R => fst p - snd p)).
      unfold l. rewrite combine_nth by (rewrite map_length, seq_length, t_len; auto). cbn [fst snd]. fold (vec (map (act R m (vec (t (S n)))) (seq 0 N)) i). fold (vec (t n) i).
      rewrite vec_map, t_vec, act_t by auto. symmetry. apply cv_SS.
    Qed.

    Lemma m_even : forall n, (k1 + k1) * (dot R (t n) (t n) - dot R starter starter * half) = braket N (vec starter) (cheb N X (2 * n)) (vec starter).
    Proof.
      intros n. rewrite <- t_0 at 1 2. rewrite !dot_t. cbn [cv]. rewrite (diag_even R half Hhalf N X (vec starter) n HX). apply inner_cheb.
    Qed.
    Lemma m_odd : forall n, (k1 + k1) * dot R (t (S n)) (t n) - dot R (t 1) starter = braket N (vec starter) (cheb N X (2 * n + 1)) (vec starter).
    Proof.
      intros n. rewrite <- t_0 at 1. rewrite !dot_t. change (cv R N X (vec starter) 0) with (vec starter). rewrite (diag_odd R N X (vec starter) n HX). apply inner_cheb.
    Qed.

    (** After the passes 1 .. p the first 2p + 2 moments are there, the others are 0. *)
    Let filled num p := map (fun n => if n <? 2 * p + 2 then mu n else k0) (seq 0 num).
    Lemma filled_nth : forall num p n, n < num -> nth n (filled num p) k0 = if n <? 2 * p + 2 then mu n else k0.
    Proof. intros num p n H. unfold filled. exact (vec_map R _ num n H). Qed.
    Lemma filled_vec : forall num p n, n < num -> vec (filled num p) n = if n <? 2 * p + 2 then mu n else k0.
    Proof. intros num p n H. unfold filled. exact (vec_map R _ num n H). Qed.

    Lemma loop : forall num p, 2 * p + 1 < num ->
      ofold (py_step R m) (seq 1 p) (t 0, t 1, filled num 0) = Ok (t p, t (S p), filled num p).
    Proof.
      intros num p. induction p as [|p IH]; intros H; [reflexivity|].
      rewrite seq_S. rewrite ofold_app, IH by lia. cbn [ofold obind Nat.add]. unfold py_step. rewrite (csr_dot_ok N) by (apply (py_range N h W) || apply t_len).
      cbn [obind]. rewrite next_t. rewrite !filled_nth by lia. rewrite (proj2 (Nat.ltb_lt 0 _)), (proj2 (Nat.ltb_lt 1 _)) by lia.
      do 2 f_equal. apply vec_ext.
      - rewrite !upd_length. unfold filled. now rewrite !map_length, !seq_length.
      - intros i Hi. rewrite !upd_length in Hi. unfold filled in Hi. rewrite map_length, seq_length in Hi.
        assert (LF : length (filled num p) = num) by (unfold filled; now rewrite map_length, seq_length).
        rewrite vec_upd by (rewrite upd_length; lia). rewrite vec_upd by lia. rewrite !filled_vec by auto.
        assert (M0 : mu 0 = dot R starter starter * half).
        { unfold mu, halved. rewrite <- inner_cheb. cbn [cv]. rewrite <- t_0 at 3 4. rewrite dot_t. cbn [cv]. ring. }
        assert (M1 : mu 1 = dot R (t 1) starter).
        { unfold mu, halved. rewrite <- inner_cheb. rewrite <- t_0 at 3. rewrite dot_t, (cv_self R N X HX). reflexivity. }
        destruct (Nat.eqb_spec i (2 * S p + 1)) as [->|N1].
        + rewrite M1, m_odd. destruct (Nat.ltb_spec (2 * S p + 1) (2 * S p + 2)); [|lia]. unfold mu. destruct (2 * S p + 1)%nat eqn:E; [lia|reflexivity].
        + destruct (Nat.eqb_spec i (2 * S p)) as [->|N2].
          * rewrite M0, m_even. destruct (Nat.ltb_spec (2 * S p) (2 * S p + 2)); [|lia]. unfold mu. destruct (2 * S p)%nat eqn:E; [lia|reflexivity].
          * destruct (Nat.ltb_spec i (2 * p + 2)), (Nat.ltb_spec i (2 * S p + 2)); try lia; reflexivity.
    Qed.

    Lemma run : forall num, 2 <= num ->
      py_moments R half num starter m = Ok (map (fun n => if n <? 2 * (num / 2) then mu n else k0) (seq 0 num)).
    Proof.
      intros num H. unfold py_moments. destruct (Nat.ltb_spec num 2); [lia|]. rewrite (csr_dot_ok N) by (apply (py_range N h W) || auto). cbn [obind].
      assert (D : 2 * (num / 2) <= num) by (apply Nat.mul_div_le; lia). assert (D1 : 1 <= num / 2) by (apply Nat.div_le_lower_bound; lia).
      assert (T1 : map (fun v => v * half) (map (act R m (vec starter)) (seq 0 N)) = t 1).
      { rewrite map_map. unfold t. apply map_ext_in. intros i Hi. apply in_seq in Hi. rewrite <- t_0 at 1. rewrite act_t by lia. cbn [cv]. apply (half_two R half Hhalf). }
      rewrite T1.
      assert (F0 : upd (upd (repeat k0 num) 0 (dot R starter starter * half)) 1 (dot R (t 1) starter) = filled num 0).
      { apply vec_ext; [rewrite !upd_length, repeat_length; unfold filled; now rewrite map_length, seq_length|].
        intros i Hi. rewrite !upd_length, repeat_length in Hi. rewrite vec_upd by (rewrite upd_length, repeat_length; lia). rewrite vec_upd by (rewrite repeat_length; lia).
        rewrite filled_vec by auto. destruct i as [|[|i]].
        - cbn [Nat.eqb]. cbn [Nat.mul Nat.add Nat.ltb Nat.leb]. unfold mu, halved. rewrite <- inner_cheb. cbn [cv]. rewrite <- t_0 at 1 2. rewrite dot_t. cbn [cv]. ring.
        - cbn [Nat.eqb]. cbn [Nat.mul Nat.add Nat.ltb Nat.leb]. unfold mu, halved. rewrite <- inner_cheb. rewrite <- t_0 at 1. rewrite dot_t, (cv_self R N X HX). reflexivity.
        - cbn [Nat.eqb]. cbn [Nat.mul Nat.add Nat.ltb Nat.leb]. unfold vec. apply nth_repeat. }
      rewrite F0. rewrite <- t_0 at 1. rewrite loop by lia. cbn [omap obind snd]. f_equal. unfold filled. apply map_ext_in. intros n _.
      replace (2 * (num / 2 - 1) + 2)%nat with (2 * (num / 2))%nat by lia. reflexivity.
    Qed.
  End Run.
End Moments.

(* ------------------------------------------------------------------ moments *)
(** The moments of the Python loop for an even number of moments: <r|T_n((H - b)/a)|r>, moment zero halved;
    the same numbers as [Core::moments] and the columns of [Core::ldos] (C27). *)
Theorem C92_moments : forall (R : scalar) (half inv_a b : R), kadd half half = k1 -> forall N h starter num,
  wf_csr N h -> length starter = N -> hermitian N (scaled_dense inv_a b (coef h)) -> 2 <= num -> Nat.even num = true ->
  py_moments R half num starter (py_rescale R inv_a b h)
  = Ok (map (fun n => halved half n (braket N (vec starter) (cheb N (scaled_dense inv_a b (coef h)) n) (vec starter))) (seq 0 num)).
Proof.
  intros R half inv_a b Hh N h starter num W Hs HX H2 He. rewrite (run R half Hh inv_a b N h W starter Hs HX num H2). f_equal.
  apply map_ext_in. intros n Hn. apply in_seq in Hn. apply Nat.even_spec in He. destruct He as (k & ->).
  rewrite (Nat.mul_comm 2 k), Nat.div_mul by lia. destruct (Nat.ltb_spec n (2 * k)); [reflexivity|lia].
Qed.
(** An odd number: the last moment is never written. *)
Theorem C92_odd : forall (R : scalar) (half inv_a b : R), kadd half half = k1 -> forall N h starter num,
  wf_csr N h -> length starter = N -> hermitian N (scaled_dense inv_a b (coef h)) -> 2 <= num -> Nat.even num = false ->
  exists ms, py_moments R half num starter (py_rescale R inv_a b h) = Ok ms /\ length ms = num /\ nth (num - 1) ms k0 = k0 /\
    forall n, n < num - 1 -> nth n ms k0 = halved half n (braket N (vec starter) (cheb N (scaled_dense inv_a b (coef h)) n) (vec starter)).
Proof.
  intros R half inv_a b Hh N h starter num W Hs HX H2 He. eexists. split; [exact (run R half Hh inv_a b N h W starter Hs HX num H2)|].
  assert (D : 2 * (num / 2) = num - 1).
  { assert (O : Nat.odd num = true) by (unfold Nat.odd; rewrite He; reflexivity). apply Nat.odd_spec in O. destruct O as (k & ->).
    replace (2 * k + 1) with (1 + k * 2) by lia. rewrite Nat.div_add by lia. cbn. lia. }
  rewrite D. split; [now rewrite map_length, seq_length|]. split.
  - assert (V := vec_map R (fun n => if n <? num - 1 then halved half n (braket N (vec starter) (cheb N (scaled_dense inv_a b (coef h)) n) (vec starter)) else k0) num (num - 1) ltac:(lia)).
    unfold vec at 1 in V. rewrite V. now rewrite Nat.ltb_irrefl.
  - intros n Hn. assert (V := vec_map R (fun n => if n <? num - 1 then halved half n (braket N (vec starter) (cheb N (scaled_dense inv_a b (coef h)) n) (vec starter)) else k0) num n ltac:(lia)).
    unfold vec at 1 in V. rewrite V. destruct (Nat.ltb_spec n (num - 1)); [reflexivity|lia].
Qed.
Theorem C92_few : forall (R : scalar) (half : R) num starter h2, num < 2 -> py_moments R half num starter h2 = Throw.
Proof. intros R half num starter h2 H. unfold py_moments. destruct (Nat.ltb_spec num 2); [reflexivity|lia]. Qed.

(* ------------------------------------------------------------------ density of states *)
Local Open Scope R_scope.
Lemma braket_ext : forall N A (u v : nat -> CX), (forall i, (i < N)%nat -> u i = v i) -> braket N u A u = braket N v A v.
Proof.
  intros N A u v H. unfold braket. apply ksum_ext. intros i Hi. apply in_seq in Hi. apply ksum_ext. intros j Hj. apply in_seq in Hj. rewrite !H by lia. reflexivity.
Qed.

Lemma py_reconstruct_same : forall s ms E, 0 < s_a s -> py_reconstruct ms s E = spectral_density s ms E.
Proof.
  intros s ms E Ha. unfold py_reconstruct, spectral_density, scaled. set (w := (E - s_b s) / s_a s). replace (w ^ 2) with (w * w) by ring.
  destruct (Rlt_dec 0 (1 - w * w)); [|reflexivity]. do 3 f_equal. pose proof PI_RGT_0. field. split; lra.
Qed.

Lemma py_ldos_value : forall kn lo hi N h i broadening energy num, lo < hi -> (0 < N)%nat -> wf_csr N h -> hermitian N (coef h) -> (i < N)%nat ->
  let s := py_scale lo hi in kn_required kn (broadening / s_a s) = Ok num -> (2 <= num)%nat -> ((num - 2) mod 4 = 0)%nat ->
  py_ldos kn lo hi h i broadening energy
  = Ok (map (density_of (kn_g kn) s num (mu N (scaled_dense (re (/ s_a s)) (re (s_b s)) (coef h)) (at_site i))) energy).
Proof.
  intros kn lo hi N h i br energy num Hl HN W Hh Hi s Hr H2 H4. unfold py_ldos. fold s. rewrite Hr. cbn [obind].
  set (X := scaled_dense (re (/ s_a s)) (re (s_b s)) (coef h)). pose proof W as (HL & _).
  unfold py_starter. rewrite py_length, HL. destruct (Nat.ltb_spec i N); [|lia]. cbn [obind].
  assert (LS : length (upd (repeat (@k0 CX) N) i k1) = N) by (rewrite upd_length; apply repeat_length).
  assert (HX : hermitian N X) by (apply scaled_hermitian; exact Hh).
  assert (EV : Nat.even num = true).
  { apply Nat.even_spec. exists (1 + 2 * ((num - 2) / 4))%nat. pose proof (Nat.div_mod (num - 2) 4 ltac:(lia)) as D. lia. }
  rewrite (C92_moments CX cx_half _ _ cx_half_ok N h _ num W LS HX H2 EV). cbn [obind]. f_equal. apply map_ext. intros E. fold X.
  assert (Ha : 0 < s_a s) by (unfold s, py_scale, tolerance; cbn [s_a]; lra).
  rewrite py_reconstruct_same by exact Ha.
  assert (VS : forall j, (j < N)%nat -> vec (upd (repeat (@k0 CX) N) i k1) j = at_site i j).
  { intros j Hj. rewrite vec_upd by (rewrite repeat_length; exact Hi). unfold at_site, delta. destruct (j =? i)%nat; [reflexivity|]. unfold vec. apply nth_repeat. }
  rewrite (map_ext _ (fun n => halved cx_half n (cheb N X n i i))).
  2:{ intros n. f_equal. rewrite (braket_ext N _ _ (at_site i) VS), <- (mu_site N X i n Hi). unfold mom. rewrite inner_cheb. reflexivity. }
  pose proof (density_moments kn s (fun n => cheb N X n i i) num E) as D. unfold damped, damp in D. rewrite map_length, seq_length in D |- *.
  rewrite D. unfold density_of. destruct (Rlt_dec _ _); [|reflexivity]. do 2 f_equal. apply rsum_ext. intros n _. unfold mu. rewrite mu_site by exact Hi. reflexivity.
Qed.

(** Python and C++ take the same scaling factors, except when C++ rounds [b] to zero. *)
Lemma same_scale : forall lo hi, hi + lo = 0 \/ / 10000 <= Rabs (s_b (py_scale lo hi) / s_a (py_scale lo hi)) -> py_scale lo hi = make_scale lo hi.
Proof.
  intros lo hi H. unfold py_scale, make_scale, tolerance in *. cbn [s_a s_b] in *. f_equal. destruct (Rlt_dec _ _) as [L|L]; [|reflexivity]. destruct H as [H|H]; [rewrite H; ring|lra].
Qed.

(** Full claim: both implementations give the same numbers. *)
Definition C92_claim : Prop := forall f kn al lo hi N h orbitals broadening energy reduce, offered kn ->
  (0 < N)%nat -> wf_csr N h -> hermitian N (coef h) -> lo < hi -> can_run N h lo hi al f -> 0 < broadening ->
  orbitals <> [] -> (forall i, In i orbitals -> (i < N)%nat) ->
  py_calc_ldos kn lo hi h orbitals broadening energy reduce = cpp_calc_ldos f kn al lo hi h orbitals broadening energy reduce.

(** Proved when C++ does not round [b] to zero. *)
Theorem C92_partial : forall f kn al lo hi N h orbitals broadening energy reduce, offered kn ->
  (0 < N)%nat -> wf_csr N h -> hermitian N (coef h) -> lo < hi -> can_run N h lo hi al f -> 0 < broadening ->
  orbitals <> [] -> (forall i, In i orbitals -> (i < N)%nat) ->
  hi + lo = 0 \/ / 10000 <= Rabs (s_b (py_scale lo hi) / s_a (py_scale lo hi)) ->
  py_calc_ldos kn lo hi h orbitals broadening energy reduce = cpp_calc_ldos f kn al lo hi h orbitals broadening energy reduce.
Proof.
  intros f kn al lo hi N h orb br energy reduce Hk HN W Hh Hl Hr Hb NE Ho Hs. pose proof (same_scale lo hi Hs) as SS.
  destruct (offered_moments kn _ Hk (broadening_pos lo hi br Hl Hb)) as (num & En & N2 & N4).
  set (s := make_scale lo hi) in *. set (X := scaled_dense (re (/ s_a s)) (re (s_b s)) (coef h)).
  set (g := fun i => map (density_of (kn_g kn) s num (mu N X (at_site i))) energy).
  unfold py_calc_ldos, cpp_calc_ldos.
  rewrite (osequence_ok _ g).
  2:{ intros i Hi. unfold g, X. rewrite <- SS. apply (py_ldos_value kn lo hi N); auto. }
  rewrite (osequence_ok _ (fun k => g (nth k orb 0%nat))).
  2:{ intros k Hk'. apply in_seq in Hk'. apply (ldos_value f kn al lo hi N h HN W Hr Hh orb k (nth k orb 0%nat) br energy num En N2 N4 Ho). apply nth_error_nth'. lia. }
  assert (EQ : map (fun k => g (nth k orb 0%nat)) (seq 0 (length orb)) = map g orb).
  { rewrite <- (map_map (fun k => nth k orb 0%nat) g). f_equal. symmetry. apply (nth_ext _ _ 0%nat 0%nat); [now rewrite map_length, seq_length|].
    intros k Hk'. rewrite (nth_indep (map (fun k0 => nth k0 orb 0%nat) _) 0%nat (nth 0 orb 0%nat)) by (rewrite map_length, seq_length; exact Hk').
    rewrite (map_nth (fun k => nth k orb 0%nat)), seq_nth by exact Hk'. reflexivity. }
  rewrite EQ. cbn [obind]. destruct orb as [|i0 [|i1 t]]; [contradiction| |].
  - cbn [map length Nat.ltb Nat.leb]. rewrite andb_false_r. destruct reduce; [|reflexivity]. do 2 f_equal. unfold sum_columns.
    apply (nth_ext _ _ None None); [rewrite map_length, seq_length; unfold g; now rewrite map_length|].
    intros j Hj. rewrite map_length, seq_length in Hj.
    rewrite (nth_indep _ None ((fun j => fold_left (fun acc c => oplus acc (nth j c None)) [g i0] (Some 0)) 0%nat)) by (rewrite map_length, seq_length; exact Hj).
    rewrite (map_nth (fun j => fold_left (fun acc c => oplus acc (nth j c None)) [g i0] (Some 0))), seq_nth by exact Hj. cbn [fold_left Nat.add oplus].
    destruct (nth j (g i0) None); [now rewrite Rplus_0_l|reflexivity].
  - destruct reduce; reflexivity.
Qed.

(** The energies -1 and 1 + 10^-5: C++ takes b = 0, Python does not.  At E = a only Python has a value. *)
Theorem C92_refuted : ~ C92_claim.
Proof.
  intros C. set (hi := 1 + / 100000). pose proof (C Csr dirichlet plain (-1) hi 1%nat [[]] [0%nat] 1 [/ 2 * (hi - -1) * (1 + / 100)] false) as E.
  destruct site_ok as (HN & W & Hh & _).
  assert (Hl : -1 < hi) by (unfold hi; lra).
  specialize (E (or_intror eq_refl) HN W Hh Hl (plain_runs _ _ _ _) ltac:(lra) ltac:(discriminate) ltac:(intros i [<-|[]]; lia)).
  destruct (offered_moments dirichlet _ (or_intror eq_refl) (broadening_pos (-1) hi 1 Hl ltac:(lra))) as (num & En & N2 & N4).
  set (e := / 2 * (hi - -1) * (1 + / 100)) in *.
  assert (SB : make_scale (-1) hi = Scale e 0).
  { unfold make_scale, tolerance. fold e. f_equal. destruct (Rlt_dec _ _) as [L|L]; [reflexivity|]. exfalso. apply L.
    assert (0 < e) by (unfold e, hi; lra).
    rewrite Rabs_pos_eq by (apply Rmult_le_pos; [unfold hi; lra|apply Rlt_le, Rinv_0_lt_compat; assumption]).
    apply (Rmult_lt_reg_r e); [assumption|]. unfold Rdiv. rewrite Rmult_assoc, Rinv_l by lra. unfold e, hi. lra. }
  assert (SP : py_scale (-1) hi = Scale e (/ 2 * (hi + -1))) by reflexivity.
  unfold py_calc_ldos, cpp_calc_ldos in E. cbn [length seq osequence] in E.
  rewrite (ldos_value Csr dirichlet plain (-1) hi 1 [[]] HN W (plain_runs _ _ _ _) Hh [0%nat] 0 0 _ _ num En N2 N4) in E by (reflexivity || (intros i [<-|[]]; lia)).
  rewrite (py_ldos_value dirichlet (-1) hi 1 [[]] 0 1 [e] num Hl HN W Hh ltac:(lia)) in E; [|rewrite SP; rewrite SB in En; exact En|exact N2|exact N4].
  cbn [obind omap map andb] in E. rewrite SP, SB in E. injection E as E. unfold density_of, scaled in E. cbn [s_a s_b] in E.
  assert (He : 0 < e) by (unfold e, hi; lra).
  replace ((e - 0) / e) with 1 in E by (field; lra). destruct (Rlt_dec 0 (1 - 1 * 1)) as [L|_]; [lra|].
  destruct (Rlt_dec _ _) as [L|L]; [discriminate|]. apply L.
  set (d := / 2 * (hi + -1) / e). replace ((e - / 2 * (hi + -1)) / e) with (1 - d) by (unfold d; field; lra).
  assert (D : 0 < d < 1).
  { unfold d. split; [apply Rdiv_lt_0_compat; [unfold hi; lra|exact He]|]. apply (Rmult_lt_reg_r e); [exact He|]. unfold Rdiv. rewrite Rmult_assoc, Rinv_l by lra. unfold e, hi. lra. }
  nra.
Qed.

(** The dimer with one orbital at each of two sites: both give the same columns for its energies -1 and 1. *)
Example C92_example : forall broadening energy reduce, 0 < broadening ->
  py_calc_ldos jackson (-1) 1 dimer [0%nat; 1%nat] broadening energy reduce
  = cpp_calc_ldos Csr jackson plain (-1) 1 dimer [0%nat; 1%nat] broadening energy reduce.
Proof.
  intros br energy reduce Hb. destruct dimer_ok as (HN & W & Hh & _).
  apply (C92_partial Csr jackson plain (-1) 1 2 dimer); auto; try lra; try discriminate.
  - left. left. reflexivity.
  - apply plain_runs.
  - intros i [<-|[<-|[]]]; lia.
Qed.
Print Assumptions C92_partial.
