(* Traces of velocity operators and Chebyshev polynomials; the energy integral is linear in the moments. *)
From Verif Require Import Base Scalar Kpm KpmSpec KpmVec KpmCheb KpmCore KpmEll KpmFinal RSum Cplx RInt Spectral SpectralProofs SpectralLine SpectralKubo Mean Random RandomProofs Conductivity.
From Coq Require Import Reals Lra Ring.
Local Open Scope R_scope.
Add Ring CXringC : (k_ring CX).
Local Notation csr := (list (list (nat * CX))).
Local Notation dm := (nat -> nat -> CX).
Local Notation "'sum' x '<' n , e" := (ksum (fun x => e) (seq 0 n)) (at level 200, x name, n at level 60, e at level 200).

(** ** Hermitian and antihermitian matrices *)
Lemma cheb_hermitian : forall N (X : dm) n, hermitian N X -> hermitian N (cheb N X n).
Proof.
  intros N X n HX i j Hi Hj.
  assert (E : forall i j, (i < N)%nat -> (j < N)%nat -> inner CX N (at_site i) (cv CX N X (at_site j) n) = cheb N X n i j).
  { clear i j Hi Hj. intros i j Hi Hj. rewrite inner_cheb. unfold braket. rewrite (ksum_single CX _ N i Hi).
    - rewrite (ksum_single CX _ N j Hj).
      + unfold at_site, delta. rewrite !Nat.eqb_refl, kconj_1. ring.
      + intros k _ Hk. unfold at_site, delta. apply Nat.eqb_neq in Hk. rewrite Hk. ring.
    - intros k _ Hk. apply ksum_0. intros l _. unfold at_site, delta. apply Nat.eqb_neq in Hk. rewrite Hk, kconj_0. ring. }
  rewrite <- !E by assumption. rewrite inner_conj, cv_self by exact HX. reflexivity.
Qed.
Definition antihermitian (N : nat) (V : dm) : Prop := forall i j, (i < N)%nat -> (j < N)%nat -> kconj (V i j) = kopp (V j i).

Section Trace.
  Variable N : nat.
  (** tr(A B C D) *)
  Definition trace4 (A B C D : dm) : CX := sum a < N, sum i < N, sum k < N, sum l < N, kmul (kmul (A a k) (B k i)) (kmul (C i l) (D l a)).

  Lemma trace4_cyclic : forall A B C D, trace4 A B C D = trace4 C D A B.
  Proof.
    intros. unfold trace4. rewrite ksum_swap. apply ksum_ext. intros i _. apply ksum_ext. intros a _. rewrite ksum_swap.
    apply ksum_ext. intros k _. apply ksum_ext. intros l _. ring.
  Qed.
  Lemma reverse4 : forall f : nat -> nat -> nat -> nat -> CX,
    (sum a < N, sum b < N, sum c < N, sum d < N, f a b c d) = (sum d < N, sum c < N, sum b < N, sum a < N, f a b c d).
  Proof.
    intros f. transitivity (sum a < N, sum b < N, sum d < N, sum c < N, f a b c d).
    { apply ksum_ext. intros a _. apply ksum_ext. intros b _. apply ksum_swap. }
    transitivity (sum a < N, sum d < N, sum b < N, sum c < N, f a b c d).
    { apply ksum_ext. intros a _. apply ksum_swap. }
    rewrite ksum_swap. apply ksum_ext. intros d _. 
    transitivity (sum a < N, sum c < N, sum b < N, f a b c d).
    { apply ksum_ext. intros a _. apply ksum_swap. }
    rewrite ksum_swap. apply ksum_ext. intros c _. apply ksum_swap.
  Qed.
  Lemma trace4_adjoint : forall A B C D, hermitian N A -> hermitian N C -> antihermitian N B -> antihermitian N D ->
    kconj (trace4 A B C D) = trace4 C B A D.
  Proof.
    intros A B C D HA HC HB HD. unfold trace4.
    transitivity (sum a < N, sum i < N, sum k < N, sum l < N, kmul (kmul (A k a) (B i k)) (kmul (C l i) (D a l))).
    { rewrite ksum_conj. apply ksum_ext. intros a Ha. apply in_seq in Ha. rewrite ksum_conj. apply ksum_ext. intros i Hi. apply in_seq in Hi.
      rewrite ksum_conj. apply ksum_ext. intros k Hk. apply in_seq in Hk. rewrite ksum_conj. apply ksum_ext. intros l Hl. apply in_seq in Hl.
      rewrite !(kconj_mul CX), HA, HB, HC, HD by lia. ring. }
    rewrite reverse4. apply ksum_ext. intros l _. rewrite ksum_swap. rewrite ksum_swap. apply ksum_ext. intros k _. apply ksum_ext. intros i _. apply ksum_ext. intros a _. ring.
  Qed.
  Lemma trace4_conj : forall A B C D, trace4 (fun i j => kconj (A i j)) (fun i j => kconj (B i j)) (fun i j => kconj (C i j)) (fun i j => kconj (D i j)) = kconj (trace4 A B C D).
  Proof.
    intros. unfold trace4. rewrite ksum_conj. apply ksum_ext. intros a _. rewrite ksum_conj. apply ksum_ext. intros i _.
    rewrite ksum_conj. apply ksum_ext. intros k _. rewrite ksum_conj. apply ksum_ext. intros l _. rewrite !(kconj_mul CX). reflexivity.
  Qed.
  Lemma trace4_ext : forall A B C D A' B' C' D',
    (forall i j, (i < N)%nat -> (j < N)%nat -> A i j = A' i j /\ B i j = B' i j /\ C i j = C' i j /\ D i j = D' i j) ->
    trace4 A B C D = trace4 A' B' C' D'.
  Proof.
    intros A B C D A' B' C' D' H. unfold trace4. apply ksum_ext. intros a Ha. apply in_seq in Ha. apply ksum_ext. intros i Hi. apply in_seq in Hi.
    apply ksum_ext. intros k Hk. apply in_seq in Hk. apply ksum_ext. intros l Hl. apply in_seq in Hl.
    destruct (H a k) as (-> & _); [lia|lia|]. destruct (H k i) as (_ & -> & _); [lia|lia|]. destruct (H i l) as (_ & _ & -> & _); [lia|lia|].
    destruct (H l a) as (_ & _ & _ & ->); [lia|lia|]. reflexivity.
  Qed.

  (** The moments of the conductivity (C95) *)
  Definition pair_trace (T : nat -> dm) (L V : dm) (n m : nat) : CX :=
    sum a < N, sum i < N, kmul (kconj (dmul N V (T m) i a)) (dmul N (T n) L i a).
  Lemma pair_trace4 : forall T L V n m, (forall n, hermitian N (T n)) -> antihermitian N V ->
    pair_trace T L V n m = kopp (trace4 (T m) V (T n) L).
  Proof.
    intros T L V n m HT HV. unfold pair_trace, trace4.
    transitivity (kmul (kopp k1) (sum a < N, sum i < N, sum k < N, sum l < N, kmul (kmul (T m a k) (V k i)) (kmul (T n i l) (L l a)))); [|ring].
    rewrite <- ksum_mul_l. apply ksum_ext. intros a Ha. apply in_seq in Ha. rewrite <- ksum_mul_l. apply ksum_ext. intros i Hi. apply in_seq in Hi.
    unfold dmul. rewrite ksum_conj, <- ksum_mul_r, <- ksum_mul_l. apply ksum_ext. intros k Hk. apply in_seq in Hk.
    rewrite (kconj_mul CX), HV, HT by lia. rewrite <- !ksum_mul_l. apply ksum_ext. intros l _. ring.
  Qed.
  Lemma pair_trace_conj : forall T L V n m, (forall n, hermitian N (T n)) -> antihermitian N V -> antihermitian N L ->
    kconj (pair_trace T L V n m) = pair_trace T L V m n.
  Proof.
    intros T L V n m HT HV HL. rewrite !pair_trace4 by assumption. rewrite <- (trace4_adjoint (T m) V (T n) L) by auto.
    generalize (trace4 (T m) V (T n) L). intros [p q]. reflexivity.
  Qed.
  Lemma pair_trace_reversed : forall T T' L V L' V' n m, (forall n, hermitian N (T n)) -> antihermitian N V -> antihermitian N L ->
    (forall n i j, (i < N)%nat -> (j < N)%nat -> T' n i j = kconj (T n i j)) ->
    (forall i j, (i < N)%nat -> (j < N)%nat -> L' i j = kconj (L i j) /\ V' i j = kconj (V i j)) ->
    pair_trace T' V' L' n m = pair_trace T L V n m.
  Proof.
    intros T T' L V L' V' n m HT HV HL ET EV.
    assert (HT' : forall n, hermitian N (T' n)) by (intros k i j Hi Hj; rewrite !ET, HT by assumption; reflexivity).
    assert (HL' : antihermitian N L').
    { intros i j Hi Hj. rewrite (proj1 (EV i j Hi Hj)), (proj1 (EV j i Hj Hi)), (kconj_conj CX), (HL j i Hj Hi). ring. }
    rewrite !pair_trace4 by assumption. f_equal.
    rewrite (trace4_ext (T' m) L' (T' n) V' (fun i j => kconj (T m i j)) (fun i j => kconj (L i j)) (fun i j => kconj (T n i j)) (fun i j => kconj (V i j))).
    - rewrite trace4_conj, trace4_adjoint by auto. apply trace4_cyclic.
    - intros i j Hi Hj. rewrite !ET by assumption. destruct (EV i j Hi Hj). repeat split; assumption.
  Qed.
End Trace.

Lemma cheb_conj : forall N (X X' : dm), (forall i j, (i < N)%nat -> (j < N)%nat -> X' i j = kconj (X i j)) ->
  forall n i j, (i < N)%nat -> (j < N)%nat -> cheb N X' n i j = kconj (cheb N X n i j).
Proof.
  intros N X X' E n.
  assert (G : (forall i j, (i < N)%nat -> (j < N)%nat -> cheb N X' n i j = kconj (cheb N X n i j)) /\
              (forall i j, (i < N)%nat -> (j < N)%nat -> cheb N X' (S n) i j = kconj (cheb N X (S n) i j))).
  { induction n as [|n (I0 & I1)].
    - split; intros i j Hi Hj; [|cbn [cheb]; apply E; assumption]. cbn [cheb]. unfold delta. destruct (i =? j)%nat; [rewrite kconj_1 | rewrite kconj_0]; reflexivity.
    - split; [exact I1|]. intros i j Hi Hj.
      change (ksub (kmul (kadd k1 k1) (dmul N X' (cheb N X' (S n)) i j)) (cheb N X' n i j) = kconj (ksub (kmul (kadd k1 k1) (dmul N X (cheb N X (S n)) i j)) (cheb N X n i j))).
      rewrite I0 by assumption. rewrite (kconj_sub CX), (kconj_mul CX), (kconj_add CX), kconj_1. f_equal. f_equal. unfold dmul. rewrite ksum_conj. apply ksum_ext.
      intros k Hk. apply in_seq in Hk. rewrite (kconj_mul CX), E, I1 by lia. reflexivity. }
  apply G.
Qed.

(** ** The energy integral *)
Lemma gamma_conj : forall en m n, kconj (gamma en m n) = gamma en n m.
Proof. intros en m n. unfold gamma. rewrite (kconj_add CX), (kconj_conj CX). ring. Qed.

Lemma kubo_linear : forall lo hi size num kbt chem, lo < hi -> (2 <= size)%nat ->
  exists c : nat -> nat -> CX, forall ms, kubo_bastin lo hi size num ms kbt chem = Ok (sum n < num, sum m < num, kmul (c m n) (ms m n)).
Proof.
  intros lo hi size num kbt chem Hl Hs. set (s := make_scale lo hi). set (x := fun i => scaled s lo + INR i * ((hi - lo) / INR (size - 1) / s_a s)).
  set (w := fun i m n => kmul (re (fermi_dirac (s_a s / kbt) (scaled s chem) (x i))) (kmul (re (1 / ((1 - x i * x i) * (1 - x i * x i)))) (gamma (x i) m n))).
  exists (fun m n => kmul (re (INR (size - 1) / INR size)) (kmul (re (4 / (s_a s * s_a s)))
    (sum i < size - 1, kmul (re ((x (S i) - x i) / 2)) (kadd (w i m n) (w (S i) m n))))).
  intros ms. transitivity (Ok (kmul (re (INR (size - 1) / INR size)) (kmul (re (4 / (s_a s * s_a s))) (trapezoid x (fun i => kmul (re (fermi_dirac (s_a s / kbt) (scaled s chem) (x i))) (sum_nm num ms (x i))) size)))); [exact (kubo_value lo hi size num ms kbt chem Hl Hs)|].
  f_equal. unfold trapezoid.
  assert (W : forall i, kmul (re (fermi_dirac (s_a s / kbt) (scaled s chem) (x i))) (sum_nm num ms (x i)) = sum n < num, sum m < num, kmul (w i m n) (ms m n)).
  { intros i. unfold sum_nm. rewrite <- !ksum_mul_l. apply ksum_ext. intros n _. rewrite <- !ksum_mul_l. apply ksum_ext. intros m _. unfold w. ring. }
  transitivity (kmul (re (INR (size - 1) / INR size)) (kmul (re (4 / (s_a s * s_a s)))
    (sum i < size - 1, sum n < num, sum m < num, kmul (kmul (re ((x (S i) - x i) / 2)) (kadd (w i m n) (w (S i) m n))) (ms m n)))).
  { f_equal. f_equal. apply ksum_ext. intros i _. rewrite !W, <- ksum_add, <- ksum_mul_l. apply ksum_ext. intros n _. rewrite <- ksum_add, <- ksum_mul_l. apply ksum_ext. intros m _. ring. }
  rewrite ksum_swap, <- !ksum_mul_l. apply ksum_ext. intros n _. rewrite ksum_swap, <- !ksum_mul_l. apply ksum_ext. intros m _. rewrite ksum_mul_r. ring.
Qed.

Lemma kubo_ext : forall lo hi size num ms ms' kbt chem, lo < hi -> (2 <= size)%nat -> (forall m n, (m < num)%nat -> (n < num)%nat -> ms m n = ms' m n) ->
  kubo_bastin lo hi size num ms kbt chem = kubo_bastin lo hi size num ms' kbt chem.
Proof.
  intros lo hi size num ms ms' kbt chem Hl Hs E. destruct (kubo_linear lo hi size num kbt chem Hl Hs) as (c & C). rewrite !C. f_equal.
  apply ksum_ext. intros n Hn. apply in_seq in Hn. apply ksum_ext. intros m Hm. apply in_seq in Hm. rewrite E by lia. reflexivity.
Qed.

Lemma kubo_real : forall lo hi size num ms kbt chem, lo < hi -> (2 <= size)%nat ->
  (forall m n, (m < num)%nat -> (n < num)%nat -> kconj (ms m n) = ms n m) ->
  exists r, kubo_bastin lo hi size num ms kbt chem = Ok (re r).
Proof.
  intros lo hi size num ms kbt chem Hl Hs E. set (s := make_scale lo hi). set (x := fun i => scaled s lo + INR i * ((hi - lo) / INR (size - 1) / s_a s)).
  assert (KV : kubo_bastin lo hi size num ms kbt chem = Ok (kmul (re (INR (size - 1) / INR size)) (kmul (re (4 / (s_a s * s_a s))) (trapezoid x (fun i => kmul (re (fermi_dirac (s_a s / kbt) (scaled s chem) (x i))) (sum_nm num ms (x i))) size)))) by exact (kubo_value lo hi size num ms kbt chem Hl Hs).
  rewrite KV.
  match goal with |- exists r, Ok ?v = _ => assert (Q : kconj v = v) end.
  { rewrite !(kconj_mul CX), !re_conj. f_equal. f_equal. unfold trapezoid. rewrite ksum_conj. apply ksum_ext. intros i _. rewrite (kconj_mul CX), re_conj. f_equal.
    assert (P : forall en, kconj (sum_nm num ms en) = sum_nm num ms en).
    { intros en. unfold sum_nm. rewrite (kconj_mul CX), re_conj. f_equal. rewrite ksum_conj, ksum_swap. apply ksum_ext. intros n Hn. apply in_seq in Hn.
      rewrite ksum_conj. apply ksum_ext. intros m Hm. apply in_seq in Hm. rewrite (kconj_mul CX), gamma_conj, E by lia. reflexivity. }
    rewrite (kconj_add CX), !(kconj_mul CX), !re_conj, !P. reflexivity. }
  match goal with |- exists r, Ok ?v = _ => exists (fst v); generalize v, Q end. intros [p q] Q'. f_equal. cbn. unfold re. f_equal. apply (f_equal snd) in Q'. cbn in Q'. lra.
Qed.

(** ** Averages *)
Section Average.
  Variable M : nat.
  Hypothesis HM : (0 < M)%nat.
  Lemma cmean_add : forall n F G, cmean M n (fun u => kadd (F u) (G u)) = kadd (cmean M n F) (cmean M n G).
  Proof. intros. unfold cmean. cbn. unfold cx_add, mk. cbn. rewrite !(mean_add M). reflexivity. Qed.
  Lemma cmean_mul : forall n c F, cmean M n (fun u => kmul c (F u)) = kmul c (cmean M n F).
  Proof.
    intros n [p q] F. unfold cmean. cbn. unfold cx_mul, mk. cbn.
    rewrite (mean_ext M HM n _ (fun l => p * fst (F l) + (- q) * snd (F l))) by (intros; ring).
    rewrite !(mean_add M), !(mean_scal M). f_equal; ring.
  Qed.
  Lemma cmean_0 : forall n, cmean M n (fun _ => k0) = k0.
  Proof. intros. unfold cmean. rewrite !(mean_const M HM). reflexivity. Qed.
  Lemma cmean_sum : forall n (A : Type) (F : A -> list nat -> CX) l, cmean M n (fun u => ksum (fun a => F a u) l) = ksum (fun a => cmean M n (F a)) l.
  Proof.
    intros n A F l. induction l as [|a l IH]; [exact (cmean_0 n)|]. rewrite ksum_cons, <- IH, <- cmean_add. reflexivity.
  Qed.
  Lemma kubo_mean : forall lo hi size num (ms : list nat -> nat -> nat -> CX) kbt chem n, lo < hi -> (2 <= size)%nat ->
    exists v : list nat -> CX, (forall u, kubo_bastin lo hi size num (ms u) kbt chem = Ok (v u)) /\
      kubo_bastin lo hi size num (fun a b => cmean M n (fun u => ms u a b)) kbt chem = Ok (cmean M n v).
  Proof.
    intros lo hi size num ms kbt chem n Hl Hs. destruct (kubo_linear lo hi size num kbt chem Hl Hs) as (c & C).
    exists (fun u => sum b < num, sum a < num, kmul (c a b) (ms u a b)). split; [intros u; apply C|]. rewrite C. f_equal.
    rewrite cmean_sum. apply ksum_ext. intros b _. rewrite cmean_sum. apply ksum_ext. intros a _. rewrite cmean_mul. reflexivity.
  Qed.
End Average.
