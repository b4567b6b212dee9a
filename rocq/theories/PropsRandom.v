(* C95: stochastic density of states and conductivity moments are right on average. *)
From Verif Require Import Base Scalar Kpm KpmSpec KpmVec KpmCheb KpmGram KpmCore KpmEll KpmFinal KpmBatch RSum Cplx RInt Spectral SpectralProofs SpectralLine SpectralTheorem PropsKpm PropsSpectral PropsEigen Mean Random RandomProofs.
From Coq Require Import Reals Lra Ring.
Local Open Scope R_scope.
Add Ring CXringR2 : (k_ring CX).
Local Notation csr := (list (list (nat * CX))).

(** [mean M n f] (Mean.v): average of [f] over [n] independent draws of 0, ..., M - 1; [cmean] the same for
    complex values.  Draw [k] gives the random number k/M ([numbers]).  [fair]: M is even for the signs of a
    real matrix and at least two for the phases of a complex one. *)

Lemma kmul_swap : forall a b c : CX, kmul a (kmul b c) = kmul b (kmul a c).
Proof. intros. ring. Qed.
Section Dos.
  Variable f : format.
  Variable al : algorithm.
  Variables lo hi : R.
  Variable N : nat.
  Variable h : csr.
  Hypothesis HN : (0 < N)%nat.
  Hypothesis Hwf : wf_csr N h.
  Hypothesis Hh : hermitian N (coef h).
  Hypothesis Hl : lo < hi.
  Hypothesis Hr : can_run N h lo hi al f.
  Variables num bs v threads : nat.
  Hypothesis H2 : (2 <= num)%nat.
  Hypothesis H4 : ((num - 2) mod 4 = 0)%nat.
  Hypothesis Hb : (0 < bs)%nat.
  Hypothesis Hv : (0 < v)%nat.
  Let s := make_scale lo hi.
  Let X : nat -> nat -> CX := scaled_dense (re (/ s_a s)) (re (s_b s)) (coef h).
  Lemma length_h : length h = N. Proof. apply Hwf. Qed.
  Lemma inv_1 : v = 1%nat -> re (/ INR v) = @k1 CX.
  Proof. intros ->. cbn [INR]. rewrite Rinv_1. reflexivity. Qed.
  Lemma X_herm : hermitian N X. Proof. apply X_hermitian. exact Hh. Qed.

  Lemma dos_exists : forall is_real next, exists ms, dos_moments f al lo hi h is_real next num bs v threads ms.
  Proof.
    intros is_real next. destruct (f_dos CX cx_half cx_half_ok _ _ N h HN Hwf al f Hr num H2 H4 X_herm) as (oh & E & D).
    set (mom := fun k : nat => match dos_column CX cx_half (format_kernel CX cx_half f) al num oh (random_vector is_real next (length h) (k * length h)) with Ok l => l | _ => [] end).
    assert (L : forall k, length (mom k) = num).
    { intros k. unfold mom. rewrite D by (unfold random_vector; rewrite map_length, seq_length; exact length_h). rewrite map_length, seq_length. reflexivity. }
    destruct (run_exists CX bs num v (re (/ INR v)) mom Hb Hv L threads (DVec [])) as (st & R1 & F).
    destruct (C29_accumulate CX bs num v (re (/ INR v)) mom Hb Hv L inv_1 threads (DVec []) st R1) as (_ & Q). destruct (Q F) as (ms & Ems & _).
    exists ms, oh, (DVec []), st. auto.
  Qed.
  Variable is_real : bool.
  Variable M : nat.
  Hypothesis HM : fair is_real M.
  Definition mean_moments (u : list nat) : list CX :=
    map (fun n => halved cx_half n (kmul (re (/ INR v)) (vsum is_real M N v (cheb N X n) u))) (seq 0 num).
  Lemma dos_unique : forall u ms, dos_moments f al lo hi h is_real (numbers M u) num bs v threads ms -> ms = mean_moments u.
  Proof.
    intros u ms (oh & d & st & E & R1 & F & Ems). rewrite length_h in R1.
    pose proof (C29_dos CX cx_half _ _ cx_half_ok N h HN Hwf al f Hr num (fun k => random_vector is_real (numbers M u) N (k * N)) bs v (re (/ INR v)) threads d oh st H2 H4 X_herm
      (fun k => start_length is_real M N u k) Hb Hv inv_1 E R1 F) as Q.
    rewrite Ems in Q. injection Q as ->. unfold mean_moments. apply map_ext. intros n. unfold vsum, start_vector, halved. destruct n; [|reflexivity].
    rewrite ksum_mul_l. apply kmul_swap.
  Qed.
  Lemma mean_moment : forall n, (n < num)%nat -> cmean M (v * N) (fun u => nth n (mean_moments u) k0) = halved cx_half n (ksum (fun i => cheb N X n i i) (seq 0 N)).
  Proof.
    intros n Hn. rewrite (cmean_ext is_real M HM _ _ (fun u => halved cx_half n (kmul (re (/ INR v)) (vsum is_real M N v (cheb N X n) u)))).
    2: { intros u. unfold mean_moments. rewrite (nth_indep _ _ ((fun n => halved cx_half n (kmul (re (/ INR v)) (vsum is_real M N v (cheb N X n) u))) 0%nat)) by (rewrite map_length, seq_length; exact Hn).
         rewrite (map_nth (fun n => halved cx_half n (kmul (re (/ INR v)) (vsum is_real M N v (cheb N X n) u))) (seq 0 num) 0%nat n), seq_nth by exact Hn. reflexivity. }
    pose proof (mean_inv is_real M HM N v (cheb N X n) Hv) as Q. unfold halved. destruct n; [|exact Q]. rewrite <- Q. unfold cmean.
    rewrite (mean_ext M (fair_pos _ _ HM) (v * N)%nat _ (fun u => / 2 * fst (kmul (re (/ INR v)) (vsum is_real M N v (cheb N X 0) u)))) by (intros; apply fst_re_mul).
    rewrite (mean_ext M (fair_pos _ _ HM) (v * N)%nat (fun l => snd _) (fun u => / 2 * snd (kmul (re (/ INR v)) (vsum is_real M N v (cheb N X 0) u)))) by (intros; destruct (vsum is_real M N v (cheb N X 0) l); cbn; ring).
    rewrite !mean_scal. cbn. unfold cx_mul, cx_half, re, mk. cbn. f_equal; ring.
  Qed.
  (** The reconstructed density in terms of the states. *)
  Lemma dos_lines : forall psi en, eigenbasis N (coef h) psi en -> (forall k, (k < N)%nat -> lo <= en k <= hi) ->
    forall g req, g num 0%nat = 1 -> forall u E, lo <= E <= hi ->
    spectral_density s (map fst (damped (KernelDef g req) (mean_moments u))) E
    = Some (/ INR v * fst (vsum is_real M N v (fn N psi (fun m => line (g num) num (s_a s) (s_b s) (en m) E)) u)).
  Proof.
    intros psi en HE Hen g req Hg u E HEl. destruct (scale_ok lo hi Hl) as (Ha & _). fold s in Ha.
    pose proof (scaled_range lo hi E Hl HEl) as Hx. fold s in Hx.
    assert (Hx' : forall k, (k < N)%nat -> -1 <= scaled s (en k) <= 1) by (intros k Hk; pose proof (scaled_range lo hi (en k) Hl (Hen k Hk)) as Q; fold s in Q; lra).
    unfold mean_moments. rewrite (density_moments (KernelDef g req) s (fun n => kmul (re (/ INR v)) (vsum is_real M N v (cheb N X n) u))). cbn [kn_g].
    set (w := fun m => / INR v * rsum (fun k => overlap N psi (vec (start_vector is_real M N u k)) m) v).
    transitivity (density_of g s num (fun n => rsum (fun m => w m * tcos (scaled s (en m)) n) N) E).
    - unfold density_of. destruct (Rlt_dec 0 (1 - scaled s E * scaled s E)); [|reflexivity]. do 2 f_equal. apply rsum_ext. intros n _. do 3 f_equal.
      rewrite fst_re_mul. unfold vsum. rewrite fst_sum. unfold w.
      rewrite (rsum_ext (fun m => / INR v * rsum (fun k => overlap N psi (vec (start_vector is_real M N u k)) m) v * tcos (scaled s (en m)) n)
        (fun m => / INR v * rsum (fun k => overlap N psi (vec (start_vector is_real M N u k)) m * tcos (scaled s (en m)) n) v)) by (intros; rewrite rsum_scal_r; ring).
      rewrite rsum_scal, rsum_swap. f_equal. apply rsum_ext. intros k _.
      pose proof (mu_eigen N _ psi _ (eigen_scaled N (coef h) psi en s HE) Hx' (vec (start_vector is_real M N u k)) n) as Q. unfold mu, mom in Q. rewrite inner_cheb in Q. exact Q.
    - rewrite (density_sum g s num w (fun m n => tcos (scaled s (en m)) n) N E (fun m => line (g num) num (s_a s) (s_b s) (en m) E)); [|intros m _; apply density_line; auto; lia|exact Hx].
      f_equal. transitivity (/ INR v * rsum (fun k => rsum (fun m => overlap N psi (vec (start_vector is_real M N u k)) m * line (g num) num (s_a s) (s_b s) (en m) E) N) v).
      + rewrite rsum_swap, <- rsum_scal. apply rsum_ext. intros m _. unfold w. rewrite rsum_scal_r. ring.
      + f_equal. unfold vsum. rewrite fst_sum. apply rsum_ext. intros k _. rewrite fn_braket. reflexivity.
  Qed.
End Dos.

(** Whatever the threads do, the moments are determined by the draws, and their average is the trace
    of the Chebyshev polynomial. *)
Theorem C95_moments : forall f al lo hi N h num bs v threads is_real M,
  (0 < N)%nat -> wf_csr N h -> hermitian N (coef h) -> lo < hi -> can_run N h lo hi al f ->
  (2 <= num)%nat -> ((num - 2) mod 4 = 0)%nat -> (0 < bs)%nat -> (0 < v)%nat -> fair is_real M ->
  let s := make_scale lo hi in
  (forall next, exists ms, dos_moments f al lo hi h is_real next num bs v threads ms) /\
  exists mom : list nat -> list CX,
    (forall u ms, dos_moments f al lo hi h is_real (numbers M u) num bs v threads ms -> ms = mom u) /\
    forall n, (n < num)%nat -> cmean M (v * N) (fun u => nth n (mom u) k0)
      = halved cx_half n (ksum (fun i => cheb N (scaled_dense (re (/ s_a s)) (re (s_b s)) (coef h)) n i i) (seq 0 N)).
Proof.
  intros f al lo hi N h num bs v threads is_real M HN Hwf Hh Hl Hr H2 H4 Hb Hv HM s. split; [apply (dos_exists f al lo hi N); assumption|].
  exists (mean_moments lo hi N h num v is_real M). split; [apply (dos_unique f al lo hi N h HN Hwf Hh Hr num bs v threads H2 H4 Hb Hv)|]. intros n Hn. apply mean_moment; assumption.
Qed.
Print Assumptions C95_moments.

(** The density of states: on average the sum of one peak per state; the mean square deviation goes down
    with the number of random vectors. *)
Theorem C95_dos : forall f al lo hi N h broadening,
  bounded_hamiltonian N h lo hi -> can_run N h lo hi al f -> 0 < broadening ->
  let s := make_scale lo hi in
  exists psi en (peak : R -> R -> R) num,
    eigenbasis N (coef h) psi en /\ (forall m, (m < N)%nat -> lo <= en m <= hi) /\
    (forall m, (m < N)%nat -> sharp_peak (peak (en m)) (s_b s - s_a s) (s_b s + s_a s) (en m) broadening) /\
    kn_required jackson (broadening / s_a s) = Ok num /\
    forall is_real M bs v threads, fair is_real M -> (0 < bs)%nat -> (0 < v)%nat ->
    exists estimate : list nat -> R -> R,
      (forall u ms energy, dos_moments f al lo hi h is_real (numbers M u) num bs v threads ms -> (forall E, In E energy -> lo <= E <= hi) ->
         map (spectral_density s (map fst (damped jackson ms))) energy = map (fun E => Some (estimate u E)) energy) /\
      forall E, lo <= E <= hi ->
        let exact := rsum (fun m => peak (en m) E) N in
        mean M (v * N) (fun u => estimate u E) = exact /\
        mean M (v * N) (fun u => (estimate u E - exact) ^ 2) <= 2 * rsum (fun m => peak (en m) E * peak (en m) E) N / INR v.
Proof.
  intros f al lo hi N h br BH Hr Hbr s. pose proof BH as (HN & Hwf & Hh & Hl & _).
  destruct (C53_all f al lo hi N h br BH Hr Hbr) as (psi & en & _ & _ & EB & En & _).
  destruct (required_ok PI (br / s_a s) PI_RGT_0 (broadening_pos lo hi br Hl Hbr)) as (num & Enum & N2 & N4 & Hnum & _).
  exists psi, en, (line (jackson_g num) num (s_a s) (s_b s)), num. split; [exact EB|]. split; [exact En|]. split.
  { intros m Hm. apply jackson_peak; auto. }
  split; [exact Enum|]. intros is_real M bs v threads HM Hb Hv.
  pose proof (orthonormal_of N (coef h) psi en EB) as O.
  exists (fun u E => / INR v * fst (vsum is_real M N v (fn N psi (fun m => line (jackson_g num) num (s_a s) (s_b s) (en m) E)) u)). split.
  - intros u ms energy Hms HE. rewrite (dos_unique f al lo hi N h HN Hwf Hh Hr num bs v threads N2 N4 Hb Hv is_real M u ms Hms). apply map_ext_in. intros E HEl.
    apply (dos_lines lo hi N h HN Hl num bs v N2 N4 Hb Hv is_real M psi en EB En jackson_g (required PI)); [apply jackson_0; exact N2|apply HE; exact HEl].
  - intros E HEl. cbv zeta. set (t := fun m => line (jackson_g num) num (s_a s) (s_b s) (en m) E). split.
    + pose proof (mean_inv is_real M HM N v (fn N psi t) Hv) as Q. apply (f_equal fst) in Q. unfold cmean in Q. cbn [mk fst] in Q.
      rewrite <- trace_re, (fn_trace N psi O t) in Q. rewrite <- Q. apply (mean_ext M (fair_pos _ _ HM)). intros u _ _. rewrite fst_re_mul. reflexivity.
    + pose proof (dev_inv is_real M HM N v (fn N psi t) Hv (fn_hermitian N psi t)) as Q. rewrite (fn_trace N psi O t), (fn_square N psi O t) in Q. exact Q.
Qed.
Print Assumptions C95_dos.

(** ** Conductivity *)
(** Element (n, m) of the moments of one start vector. *)
Definition kubo_form (N : nat) (T : nat -> nat -> nat -> CX) (left right : csr) (n m : nat) : nat -> nat -> CX :=
  fun a b => ksum (fun i => kmul (kconj (dmul N (coef right) (T m) i a)) (dmul N (T n) (coef left) i b)) (seq 0 N).

Lemma ap_ap : forall N (A B : nat -> nat -> CX) x i,
  ksum (fun j => kmul (A i j) (ksum (fun l => kmul (B j l) (x l)) (seq 0 N))) (seq 0 N) = ksum (fun l => kmul (dmul N A B i l) (x l)) (seq 0 N).
Proof.
  intros N A B x i. transitivity (ksum (fun j => ksum (fun l => kmul (kmul (A i j) (B j l)) (x l)) (seq 0 N)) (seq 0 N)).
  - apply ksum_ext. intros j _. rewrite <- ksum_mul_l. apply ksum_ext. intros l _. ring.
  - rewrite ksum_swap. apply ksum_ext. intros l _. unfold dmul. rewrite <- ksum_mul_r. reflexivity.
Qed.
Lemma kubo_braket : forall N T left right n m (r : nat -> CX),
  ksum (fun i => kmul (kconj (ksum (fun j => kmul (coef right i j) (ksum (fun l => kmul (T m j l) (r l)) (seq 0 N))) (seq 0 N)))
                      (ksum (fun j => kmul (T n i j) (ksum (fun l => kmul (coef left j l) (r l)) (seq 0 N))) (seq 0 N))) (seq 0 N)
  = braket N r (kubo_form N T left right n m) r.
Proof.
  intros N T left right n m r.
  transitivity (ksum (fun i => ksum (fun a => ksum (fun b => kmul (kmul (kconj (r a)) (kmul (kconj (dmul N (coef right) (T m) i a)) (dmul N (T n) (coef left) i b))) (r b)) (seq 0 N)) (seq 0 N)) (seq 0 N)).
  - apply ksum_ext. intros i _. rewrite !ap_ap, ksum_conj, <- ksum_mul_r. apply ksum_ext. intros a _. rewrite (kconj_mul CX), <- ksum_mul_l. apply ksum_ext. intros b _. ring.
  - rewrite ksum_swap. unfold braket. apply ksum_ext. intros a _. rewrite ksum_swap. apply ksum_ext. intros b _. unfold kubo_form. rewrite ksum_mul_r, ksum_mul_l. reflexivity.
Qed.

Lemma nth_map2 : forall (A B : Type) (F : A * A -> B) (a c : list A) n d e, length a = length c -> (n < length a)%nat ->
  nth n (map F (combine a c)) e = F (nth n a d, nth n c d).
Proof.
  intros A B F a c n d e L Hn. rewrite (nth_indep _ e (F (d, d))) by (rewrite map_length, combine_length; lia). rewrite map_nth, combine_nth by exact L. reflexivity.
Qed.
Definition is_square (num : nat) (a : list (list CX)) : Prop := length a = num /\ forall n, (n < num)%nat -> length (nth n a []) = num.
Lemma madd_entry : forall num a c, is_square num a -> is_square num c -> is_square num (madd a c) /\
  forall n m, (n < num)%nat -> (m < num)%nat -> nth m (nth n (madd a c) []) k0 = kadd (nth m (nth n a []) k0) (nth m (nth n c []) k0).
Proof.
  intros num a c (La & Ra) (Lc & Rc).
  assert (E : forall n, (n < num)%nat -> nth n (madd a c) [] = map (fun q => kadd (fst q) (snd q)) (combine (nth n a []) (nth n c []))).
  { intros n Hn. unfold madd. rewrite (nth_map2 _ _ _ a c n []) by lia. reflexivity. }
  split; [split|].
  - unfold madd. rewrite map_length, combine_length. lia.
  - intros n Hn. rewrite E by exact Hn. rewrite map_length, combine_length, Ra, Rc by exact Hn. lia.
  - intros n m Hn Hm. rewrite E by exact Hn. rewrite (nth_map2 _ _ _ _ _ m k0) by (rewrite ?Ra, ?Rc by exact Hn; lia). reflexivity.
Qed.

(** Both starters make the same vectors, so that the average of the element (n, m) is the trace
    tr((right T_m)^+ T_n left), halved for n = 0 and for m = 0. *)
Theorem C95_conductivity : forall f al lo hi N h num v left right is_real M,
  (0 < N)%nat -> wf_csr N h -> can_run N h lo hi al f ->
  (2 <= num)%nat -> ((num - 2) mod 4 = 0)%nat -> (0 < v)%nat -> in_range CX left N -> in_range CX right N -> fair is_real M ->
  let s := make_scale lo hi in
  let T := cheb N (scaled_dense (re (/ s_a s)) (re (s_b s)) (coef h)) in
  exists mu : list nat -> list (list CX),
    (forall u, conductivity_moments f al lo hi h is_real (numbers M u) num v left right = Ok (mu u)) /\
    forall n m, (n < num)%nat -> (m < num)%nat ->
      cmean M (v * N) (fun u => nth m (nth n (mu u) []) k0)
      = halved cx_half n (halved cx_half m
          (ksum (fun a => ksum (fun i => kmul (kconj (dmul N (coef right) (T m) i a)) (dmul N (T n) (coef left) i a)) (seq 0 N)) (seq 0 N))).
Proof.
  intros f al lo hi N h num v left right is_real M HN Hwf Hr H2 H4 Hv Hle Hri HM s T.
  destruct (C27_conductivity CX cx_half _ _ cx_half_ok N h HN Hwf al f Hr num left right H2 H4 Hle Hri) as (oh & E & D).
  assert (LH : length h = N) by apply Hwf.
  set (body := fun u (acc : nat * nat * list (list CX)) (_ : nat) => let '(pl, pr, total) := acc in
         obind (conductivity_pair f al num oh left right (random_vector is_real (numbers M u) N pl) (random_vector is_real (numbers M u) N pr)) (fun t =>
         Ok ((pl + N)%nat, (pr + N)%nat, madd total t))).
  set (form := fun n m => kubo_form N T left right n m).
  assert (LOOP : forall u j, exists total, ofold (body u) (seq 0 j) (0%nat, 0%nat, repeat (repeat (@k0 CX) num) num) = Ok ((j * N)%nat, (j * N)%nat, total) /\ is_square num total /\
    forall n m, (n < num)%nat -> (m < num)%nat -> nth m (nth n total []) k0 = halved cx_half n (halved cx_half m (vsum is_real M N j (form n m) u))).
  { intros u j. induction j as [|j IH].
    - eexists. split; [reflexivity|]. assert (Sq : is_square num (repeat (repeat (@k0 CX) num) num)).
      { split; [apply repeat_length|]. intros n Hn. rewrite (nth_indep _ _ (repeat (@k0 CX) num)) by (rewrite repeat_length; exact Hn). rewrite nth_repeat. apply repeat_length. }
      split; [exact Sq|]. intros n m Hn Hm. rewrite (nth_indep _ _ (repeat (@k0 CX) num)) by (rewrite repeat_length; exact Hn). rewrite !nth_repeat.
      unfold vsum. cbn [seq]. rewrite ksum_nil. unfold halved. destruct n, m; ring.
    - destruct IH as (total & E1 & Sq & En). rewrite seq_S, ofold_app, E1. cbn [obind Nat.add ofold]. unfold body at 1.
      destruct (D (start_vector is_real M N u j) (start_length is_real M N u j)) as (mu & Emu & Lmu & Dmu).
      assert (P : conductivity_pair f al num oh left right (random_vector is_real (numbers M u) N (j * N)) (random_vector is_real (numbers M u) N (j * N)) = Ok mu) by exact Emu.
      rewrite P. cbn [obind]. eexists. split; [do 2 f_equal; try f_equal; lia|].
      assert (Sm : is_square num mu) by (split; [exact Lmu|intros n Hn; apply Dmu; exact Hn]).
      destruct (madd_entry num total mu Sq Sm) as (Q1 & Q2). split; [exact Q1|]. intros n m Hn Hm. rewrite Q2, En by assumption.
      destruct (Dmu n Hn) as (_ & Dm). rewrite (Dm m Hm).
      pose proof (kubo_braket N T left right n m (vec (start_vector is_real M N u j))) as KB.
      transitivity (kadd (halved cx_half n (halved cx_half m (vsum is_real M N j (form n m) u)))
        (halved cx_half n (halved cx_half m (braket N (vec (start_vector is_real M N u j)) (kubo_form N T left right n m) (vec (start_vector is_real M N u j)))))); [rewrite <- KB; reflexivity|]. unfold vsum. rewrite ksum_S. unfold form, halved. destruct n, m; ring. }
  exists (fun u => match conductivity_moments f al lo hi h is_real (numbers M u) num v left right with Ok mu => mu | _ => [] end).
  assert (VAL : forall u, exists total, conductivity_moments f al lo hi h is_real (numbers M u) num v left right = Ok (map (map (fun x => kmul (re (/ INR v)) x)) total) /\ is_square num total /\
    forall n m, (n < num)%nat -> (m < num)%nat -> nth m (nth n total []) k0 = halved cx_half n (halved cx_half m (vsum is_real M N v (form n m) u))).
  { intros u. destruct (LOOP u v) as (total & E1 & Q). exists total. split; [|exact Q]. unfold conductivity_moments. rewrite E. cbn [obind]. rewrite LH. fold (body u). rewrite E1. reflexivity. }
  split; [intros u; destruct (VAL u) as (total & -> & _); reflexivity|]. intros n m Hn Hm.
  rewrite (cmean_ext is_real M HM _ _ (fun u => halved cx_half n (halved cx_half m (kmul (re (/ INR v)) (vsum is_real M N v (form n m) u))))).
  2: { intros u. destruct (VAL u) as (total & -> & (Lt & Rt) & Q).
       change (@nil CX) with (map (fun x : CX => kmul (re (/ INR v)) x) []). rewrite map_nth. 
       rewrite (nth_indep _ _ (kmul (re (/ INR v)) k0)) by (rewrite map_length, Rt by exact Hn; exact Hm). rewrite (map_nth (fun x : CX => kmul (re (/ INR v)) x)), Q by assumption.
       unfold halved. destruct n, m; ring. }
  pose proof (mean_inv is_real M HM N v (form n m) Hv) as Q. unfold form at 2, kubo_form in Q. rewrite <- Q.
  assert (HALF : forall F : list nat -> CX, cmean M (v * N) (fun u => kmul cx_half (F u)) = kmul cx_half (cmean M (v * N) F)).
  { intros F. unfold cmean. rewrite (mean_ext M (fair_pos _ _ HM) (v * N)%nat _ (fun u => / 2 * fst (F u))) by (intros; apply fst_re_mul).
    rewrite (mean_ext M (fair_pos _ _ HM) (v * N)%nat (fun l => snd _) (fun u => / 2 * snd (F u))) by (intros; destruct (F l); cbn; ring).
    rewrite !mean_scal. cbn. unfold cx_mul, cx_half, re, mk. cbn. f_equal; ring. }
  unfold halved. destruct n, m; rewrite ?HALF; reflexivity.
Qed.
Print Assumptions C95_conductivity.

(** The velocity operators: elements of the Hamiltonian times coordinate differences. *)
Lemma velocity_row : forall (x : list CX) row es acc, (row < length x)%nat -> (forall e, In e es -> (fst e < length x)%nat) ->
  ofold (fun acc e => obind (aget x row) (fun xr => obind (aget x (fst e)) (fun xc => Ok (acc ++ [(fst e, kmul (snd e) (ksub xr xc))])))) es acc
  = Ok (acc ++ map (fun e : nat * CX => (fst e, kmul (snd e) (ksub (nth row x k0) (nth (fst e) x k0)))) es).
Proof.
  intros x row es. induction es as [|e es IH]; intros acc Hr He; [cbn; rewrite app_nil_r; reflexivity|]. cbn [ofold map].
  unfold aget at 1. rewrite (nth_error_nth' x k0 Hr). cbn [obind]. unfold aget at 1. rewrite (nth_error_nth' x k0 (He e (or_introl eq_refl))). cbn [obind].
  rewrite IH; [rewrite <- app_assoc; reflexivity|exact Hr|]. intros e' Hi. apply He. right. exact Hi.
Qed.
Theorem C95_velocity : forall N h x, in_range CX h N -> length x = N ->
  exists V, velocity CX h x = Ok V /\ in_range CX V N /\ forall i j, (i < N)%nat -> coef V i j = kmul (coef h i j) (ksub (nth i x k0) (nth j x k0)).
Proof.
  intros N h x (Lh & Rh) Lx.
  set (g := fun row => map (fun e : nat * CX => (fst e, kmul (snd e) (ksub (nth row x k0) (nth (fst e) x k0)))) (entries h row)).
  assert (E : velocity CX h x = Ok (map g (seq 0 N))).
  { unfold velocity. rewrite Lh.
    assert (G : forall l out, (forall r, In r l -> (r < N)%nat) -> ofold (fun out row => obind (aget h row) (fun es =>
      obind (ofold (fun acc e => obind (aget x row) (fun xr => obind (aget x (fst e)) (fun xc => Ok (acc ++ [(fst e, kmul (snd e) (ksub xr xc))])))) es []) (fun es' =>
      Ok (out ++ [es'])))) l out = Ok (out ++ map g l)).
    { induction l as [|r l IH]; intros out Hl; [cbn; rewrite app_nil_r; reflexivity|]. cbn [ofold map].
      assert (Hr : (r < N)%nat) by (apply Hl; left; reflexivity). assert (Hr' : (r < length h)%nat) by (rewrite Lh; exact Hr). unfold aget at 1. rewrite (nth_error_nth' h [] Hr'). cbn [obind].
      rewrite velocity_row; [|rewrite Lx; exact Hr|intros e He; rewrite Lx; apply (Rh r); exact He]. cbn [obind app]. rewrite IH by (intros q Hq; apply Hl; right; exact Hq).
      rewrite <- app_assoc. reflexivity. }
    rewrite G; [reflexivity|]. intros r Hr. apply in_seq in Hr. lia. }
  assert (EN : forall i, (i < N)%nat -> entries (map g (seq 0 N)) i = g i).
  { intros i Hi. unfold entries. rewrite (nth_indep _ _ (g 0%nat)) by (rewrite map_length, seq_length; exact Hi). rewrite map_nth, seq_nth by exact Hi. reflexivity. }
  exists (map g (seq 0 N)). split; [exact E|]. split.
  - split; [rewrite map_length, seq_length; reflexivity|]. intros i e He. destruct (Nat.lt_ge_cases i N) as [Hi|Hi].
    + rewrite EN in He by exact Hi. unfold g in He. apply in_map_iff in He. destruct He as (e' & <- & He). cbn [fst]. apply (Rh i). exact He.
    + unfold entries in He. rewrite nth_overflow in He by (rewrite map_length, seq_length; exact Hi). destruct He.
  - intros i j Hi. unfold coef. rewrite EN by exact Hi. unfold g. rewrite ksum_map. cbn [fst snd]. rewrite <- ksum_mul_r. apply ksum_ext. intros e _.
    destruct (Nat.eqb_spec (fst e) j) as [->|_]; ring.
Qed.
Print Assumptions C95_velocity.

(** Two sites: the four sign vectors are equally likely, give moments that differ, and average to the trace. *)
Example C95_example :
  map (fun u => random_vector true (numbers 2 u) 2 0) [[0; 0]; [0; 1]; [1; 0]; [1; 1]]%nat
  = [[re (-1); re (-1)]; [re (-1); re 1]; [re 1; re (-1)]; [re 1; re 1]] /\
  map (fun u => fst (braket 2 (vec (random_vector true (numbers 2 u) 2 0)) (coef dimer) (vec (random_vector true (numbers 2 u) 2 0)))) [[0; 0]; [0; 1]; [1; 0]; [1; 1]]%nat
  = [-2; 2; 2; -2] /\
  exists ms, dos_moments Csr plain (-1) 1 dimer true (numbers 2 [0; 1]%nat) 6 1 1 2 ms.
Proof.
  assert (A : random_entry true (INR 0 / INR 2) = re (-1)) by (unfold random_entry; destruct (Rlt_dec _ _) as [_|Q]; [reflexivity|exfalso; apply Q; cbn; lra]).
  assert (B : random_entry true (INR 1 / INR 2) = re 1) by (unfold random_entry; destruct (Rlt_dec _ _) as [Q|_]; [exfalso; cbn in Q; lra|reflexivity]).
  assert (V : map (fun u => random_vector true (numbers 2 u) 2 0) [[0; 0]; [0; 1]; [1; 0]; [1; 1]]%nat
    = [[re (-1); re (-1)]; [re (-1); re 1]; [re 1; re (-1)]; [re 1; re 1]]).
  { unfold random_vector, numbers. cbn [map seq Nat.add nth]. rewrite A, B. reflexivity. }
  split; [exact V|]. split.
  - rewrite <- (map_map (fun u => random_vector true (numbers 2 u) 2 0) (fun r => fst (braket 2 (vec r) (coef dimer) (vec r)))), V.
    cbn [map]. unfold braket, vec, coef, entries, dimer, re. cbn. repeat f_equal; ring.
  - destruct dimer_ok as (HN & Hwf & Hh & Hl & _). apply (dos_exists Csr plain (-1) 1 2); auto using plain_runs; lia.
Qed.
