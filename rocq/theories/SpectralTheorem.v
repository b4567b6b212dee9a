(* Every Hermitian matrix has a complete orthonormal set of states: the statements about energies and
   wave functions are about every matrix, not only about those that happen to have such a set. *)
From Verif Require Import Base Scalar Kpm KpmSpec KpmCheb KpmGram RSum Cplx Spectral SpectralProofs SpectralLine.
From Coq Require Import Reals Lra Ring.
Local Open Scope R_scope.
Local Notation dm := (nat -> nat -> CX).
Add Ring CXring : (k_ring CX).

(** ** Complex numbers *)
Definition cinv (z : CX) : CX := (fst z / abs2 z, - snd z / abs2 z).
Lemma abs2_pos : forall z : CX, z <> k0 -> 0 < abs2 z.
Proof.
  intros [a b] H. unfold abs2. cbn. assert (a <> 0 \/ b <> 0) as [N|N].
  { destruct (Req_dec a 0) as [->|]; [|auto]. right. intros ->. apply H. reflexivity. }
  - nra.
  - nra.
Qed.
Lemma abs2_zero : forall z : CX, abs2 z = 0 -> z = k0.
Proof. intros [a b] E. unfold abs2 in E. cbn in E. assert (a = 0) by nra. assert (b = 0) by nra. subst. reflexivity. Qed.
Lemma cinv_l : forall z : CX, z <> k0 -> kmul (cinv z) z = k1.
Proof.
  intros z H. pose proof (abs2_pos z H) as P. destruct z as [a b]. cbn. unfold cx_mul, cinv. cbn. unfold abs2 in *. cbn in *. f_equal; field; lra.
Qed.
Lemma abs2_mul : forall x y : CX, abs2 (kmul x y) = abs2 x * abs2 y.
Proof. intros [a b] [c d]. unfold abs2. cbn. ring. Qed.
Lemma abs2_add : forall x y : CX, abs2 (kadd x y) <= 2 * abs2 x + 2 * abs2 y.
Proof. intros [a b] [c d]. unfold abs2. cbn. pose proof (Rle_0_sqr (a - c)). pose proof (Rle_0_sqr (b - d)). unfold Rsqr in *. lra. Qed.
Lemma cx_dec : forall z : CX, {z = k0} + {z <> k0}.
Proof. intros [a b]. destruct (Req_EM_T a 0) as [->|N]; [destruct (Req_EM_T b 0) as [->|M]; [left; reflexivity|right; intros Q; apply M; exact (f_equal snd Q)]|right; intros Q; apply N; exact (f_equal fst Q)]. Qed.
Lemma all_dec : forall (f : nat -> CX) m, (forall i, (i < m)%nat -> f i = k0) \/ (exists i, (i < m)%nat /\ f i <> k0).
Proof.
  intros f. induction m as [|m [IH|(i & Hi & E)]].
  - left. intros i H. lia.
  - destruct (cx_dec (f m)) as [E|E].
    + left. intros i Hi. destruct (Nat.eq_dec i m); [subst; exact E|apply IH; lia].
    + right. exists m. split; [lia|exact E].
  - right. exists i. split; [lia|exact E].
Qed.

(** ** A matrix has a vector in its kernel or a left inverse *)
Lemma ksum_S : forall n (f : nat -> CX), ksum f (seq 0 (S n)) = kadd (ksum f (seq 0 n)) (f n).
Proof. intros. rewrite seq_S, ksum_app, ksum_cons, ksum_nil. cbn [plus]. ring. Qed.
Lemma ap_S : forall n (B : dm) x i, ap CX (S n) B x i = kadd (ap CX n B x i) (kmul (B i n) (x n)).
Proof. intros. unfold ap. now rewrite ksum_S. Qed.
Lemma ap_add_r : forall n (B : dm) u v i, ap CX n B (fun j => kadd (u j) (v j)) i = kadd (ap CX n B u i) (ap CX n B v i).
Proof. intros. unfold ap. rewrite <- ksum_add. apply ksum_ext. intros. ring. Qed.
Lemma ap_scal : forall n (B : dm) c u i, ap CX n B (fun j => kmul c (u j)) i = kmul c (ap CX n B u i).
Proof. intros. unfold ap. rewrite <- ksum_mul_l. apply ksum_ext. intros. ring. Qed.

Lemma kernel_or_inverse : forall n m (B : dm),
  (exists x j, (j < n)%nat /\ x j <> k0 /\ forall i, (i < m)%nat -> ap CX n B x i = k0) \/
  (exists C : dm, forall x j, (j < n)%nat -> ap CX m C (ap CX n B x) j = x j).
Proof.
  intros n m B. induction n as [|n [(x & j & Hj & Nz & Z)|(C & HC)]].
  - right. exists (fun _ _ => k0). intros x j H. lia.
  - left. exists (fun l => if (l =? n)%nat then k0 else x l), j. split; [lia|]. split.
    + destruct (Nat.eqb_spec j n); [lia|exact Nz].
    + intros i Hi. rewrite ap_S, Nat.eqb_refl. rewrite (ap_ext CX n B _ x).
      * rewrite Z by exact Hi. ring.
      * intros l Hl. destruct (Nat.eqb_spec l n); [lia|reflexivity].
  - set (col := fun i => B i n). set (y := fun j => ap CX m C col j).
    set (r := fun i => ksub (B i n) (ap CX n B y i)).
    destruct (all_dec r m) as [Z|(i0 & H0 & Nz)].
    + left. exists (fun l => if (l =? n)%nat then kopp k1 else y l), n. split; [lia|]. split.
      { rewrite Nat.eqb_refl. intros Q. apply (f_equal fst) in Q. cbn in Q. lra. }
      intros i Hi. rewrite ap_S, Nat.eqb_refl. rewrite (ap_ext CX n B _ y).
      * specialize (Z i Hi). unfold r in Z. transitivity (kopp (ksub (B i n) (ap CX n B y i))); [ring|]. rewrite Z. ring.
      * intros l Hl. destruct (Nat.eqb_spec l n); [lia|reflexivity].
    + right.
      set (g := fun i => kmul (cinv (r i0)) (ksub (delta i0 i) (ksum (fun j => kmul (B i0 j) (C j i)) (seq 0 n)))).
      exists (fun j i => if (j =? n)%nat then g i else ksub (C j i) (kmul (y j) (g i))).
      intros x j Hj. set (b := ap CX (S n) B x).
      (* the part of the last column is known *)
      assert (Hb : forall l, (l < n)%nat -> ap CX m C b l = kadd (x l) (kmul (y l) (x n))).
      { intros l Hl. unfold b. rewrite (ap_ext CX m C _ (fun i => kadd (ap CX n B x i) (kmul (x n) (col i)))) by (intros i _; rewrite ap_S; unfold col; ring).
        rewrite ap_add_r, ap_scal, HC by exact Hl. fold (y l). ring. }
      assert (Hg : ksum (fun i => kmul (g i) (b i)) (seq 0 m) = x n).
      { transitivity (kmul (cinv (r i0)) (ksub (ksum (fun i => kmul (delta i0 i) (b i)) (seq 0 m)) (ksum (fun l => kmul (B i0 l) (ap CX m C b l)) (seq 0 n)))).
        - unfold ap at 1. rewrite (ksum_ext CX (fun l => kmul (B i0 l) (ksum (fun j0 => kmul (C l j0) (b j0)) (seq 0 m))) (fun l => ksum (fun i => kmul (kmul (B i0 l) (C l i)) (b i)) (seq 0 m))).
          + rewrite (ksum_swap CX (fun l i => kmul (kmul (B i0 l) (C l i)) (b i))). rewrite <- ksum_sub, <- ksum_mul_l. apply ksum_ext. intros i _. unfold g.
            rewrite ksum_mul_r. ring.
          + intros l _. rewrite <- ksum_mul_l. apply ksum_ext. intros i _. ring.
        - rewrite (ksum_single CX _ m i0 H0).
          + unfold delta. rewrite Nat.eqb_refl.
            rewrite (ksum_ext CX (fun l => kmul (B i0 l) (ap CX m C b l)) (fun l => kadd (kmul (B i0 l) (x l)) (kmul (x n) (kmul (B i0 l) (y l))))).
            * rewrite ksum_add, ksum_mul_l. unfold b. rewrite ap_S. fold (ap CX n B x i0) (ap CX n B y i0).
              transitivity (kmul (kmul (cinv (r i0)) (r i0)) (x n)); [unfold r; ring|]. rewrite cinv_l by exact Nz. ring.
            * intros l Hl. apply in_seq in Hl. rewrite Hb by lia. ring.
          + intros i _ Hi. unfold delta. destruct (Nat.eqb_spec i0 i); [congruence|]. ring. }
      unfold ap at 1. destruct (Nat.eqb_spec j n) as [->|Nj]; [exact Hg|].
      transitivity (ksub (ap CX m C b j) (kmul (y j) (ksum (fun i => kmul (g i) (b i)) (seq 0 m)))).
      * unfold ap at 1. rewrite <- ksum_mul_l, <- ksum_sub. apply ksum_ext. intros i _. ring.
      * rewrite Hg, Hb by lia. ring.
Qed.

(** ** Bounds *)
Lemma norm2_S : forall n v, norm2 (S n) v = norm2 n v + abs2 (v n). Proof. reflexivity. Qed.
Lemma norm2_ext : forall n u v, (forall i, (i < n)%nat -> u i = v i) -> norm2 n u = norm2 n v.
Proof. intros n u v H. unfold norm2. apply rsum_ext. intros i Hi. now rewrite H. Qed.
Lemma row_bound : forall m (c : nat -> CX), exists K, 0 <= K /\ forall b, abs2 (ksum (fun i => kmul (c i) (b i)) (seq 0 m)) <= K * norm2 m b.
Proof.
  induction m as [|m IH]; intros c.
  - exists 0. split; [lra|]. intros b. unfold norm2, abs2. cbn. lra.
  - destruct (IH c) as (K & K0 & HK). pose proof (abs2_nonneg (c m)) as P. exists (2 * K + 2 * abs2 (c m)). split; [lra|]. intros b. rewrite ksum_S, norm2_S.
    eapply Rle_trans; [apply abs2_add|]. rewrite abs2_mul. specialize (HK b). pose proof (norm2_nonneg m b). pose proof (abs2_nonneg (b m)). nra.
Qed.
Lemma ap_bound : forall n m (C : dm), exists K, 0 <= K /\ forall b, norm2 n (ap CX m C b) <= K * norm2 m b.
Proof.
  induction n as [|n IH]; intros m C.
  - exists 0. split; [lra|]. intros b. unfold norm2 at 1. cbn. lra.
  - destruct (IH m C) as (K & K0 & HK). destruct (row_bound m (C n)) as (L & L0 & HL). exists (K + L). split; [lra|]. intros b. rewrite norm2_S.
    specialize (HK b). specialize (HL b). unfold ap at 2. pose proof (norm2_nonneg m b). nra.
Qed.
Lemma expect_bound : forall N (B : dm), exists M, 0 < M /\ forall v, expect N B v <= M * norm2 N v.
Proof.
  intros N B. destruct (ap_bound N N B) as (K & K0 & HK). exists (1 + K). split; [lra|]. intros v. rewrite <- inner_expect. unfold inner. rewrite fst_sum.
  assert (E : rsum (fun i => fst (kmul (kconj (v i)) (ap CX N B v i))) N <= norm2 N v + norm2 N (ap CX N B v)).
  { unfold norm2. rewrite <- rsum_add. set (w := ap CX N B v). clearbody w. clear. induction N as [|N IH]; cbn [rsum]; [lra|].
    assert (Q : fst (kmul (kconj (v N)) (w N)) <= abs2 (v N) + abs2 (w N)); [|lra]. destruct (v N) as [a b], (w N) as [c d]. unfold abs2. cbn.
    pose proof (Rle_0_sqr (a - c)). pose proof (Rle_0_sqr (b - d)). unfold Rsqr in *. nra. }
  specialize (HK v). lra.
Qed.

(** ** Hermitian matrices *)
Section Herm.
  Variable N : nat.
  Notation ip := (inner CX N).
  Lemma ip_scal_r : forall c u v, ip u (fun j => kmul c (v j)) = kmul c (ip u v).
  Proof. intros. unfold inner. rewrite <- ksum_mul_l. apply ksum_ext. intros. ring. Qed.
  Lemma ip_scal_l : forall c u v, ip (fun j => kmul c (u j)) v = kmul (kconj c) (ip u v).
  Proof. intros. unfold inner. rewrite <- ksum_mul_l. apply ksum_ext. intros. rewrite kconj_mul. ring. Qed.
  Lemma ip_self : forall v, ip v v = re (norm2 N v).
  Proof.
    intros v. unfold inner, norm2. transitivity (ksum (fun i => re (abs2 (v i))) (seq 0 N)); [apply ksum_ext; intros; apply abs2_conj|].
    assert (forall n (f : nat -> R), ksum (fun i => re (f i)) (seq 0 n) = re (rsum f n)) as ->; [|reflexivity].
    induction n as [|n IH]; intros f; [reflexivity|]. rewrite ksum_S, IH. cbn. unfold cx_add, re. cbn. f_equal. ring.
  Qed.
  Lemma norm2_zero : forall v, norm2 N v <= 0 -> forall i, (i < N)%nat -> v i = k0.
  Proof.
    unfold norm2. intros v. induction N as [|n IH]; intros H i Hi; [lia|]. cbn [rsum] in H. pose proof (abs2_nonneg (v n)).
    assert (0 <= rsum (fun i => abs2 (v i)) n) by (apply rsum_nonneg; intros; apply abs2_nonneg).
    destruct (Nat.eq_dec i n); [subst; apply abs2_zero; lra|]. apply IH; [lra|lia].
  Qed.
  Lemma norm2_some : forall v j, (j < N)%nat -> v j <> k0 -> 0 < norm2 N v.
  Proof. intros v j Hj Nz. destruct (Rlt_dec 0 (norm2 N v)) as [L|L]; [exact L|]. exfalso. apply Nz. apply norm2_zero; [lra|exact Hj]. Qed.
  Lemma norm2_scal : forall c v, norm2 N (fun j => kmul (re c) (v j)) = c * c * norm2 N v.
  Proof. intros. unfold norm2. rewrite <- rsum_scal. apply rsum_ext. intros i _. rewrite abs2_mul. unfold abs2, re. cbn. ring. Qed.

  (** A form that is nowhere negative vanishes on a vector of the kernel or is bounded from below. *)
  Lemma coercive : forall B : dm, hermitian N B -> (forall v, 0 <= expect N B v) ->
    (exists x, 0 < norm2 N x /\ forall i, (i < N)%nat -> ap CX N B x i = k0) \/ (exists c, 0 < c /\ forall v, c * norm2 N v <= expect N B v).
  Proof.
    intros B HB Pos. destruct (kernel_or_inverse N N B) as [(x & j & Hj & Nz & Z)|(C & HC)].
    - left. exists x. split; [eapply norm2_some; eauto|exact Z].
    - right. destruct (ap_bound N N C) as (K & K0 & HK). destruct (expect_bound N B) as (M & M0 & HM).
      exists (/ ((1 + K) * M)). split; [apply Rinv_0_lt_compat; apply Rmult_lt_0_compat; lra|]. intros v. set (w := ap CX N B v).
      assert (A : norm2 N v <= K * norm2 N w).
      { rewrite <- (norm2_ext N (ap CX N C w) v) by (intros; apply HC; assumption). apply HK. }
      assert (E : norm2 N w <= M * expect N B v).
      { pose proof (Pos (vsub CX v (fun j => kmul (re (/ M)) (w j)))) as P. rewrite <- inner_expect in P.
        rewrite in_sub_l, !in_A_sub in P.
        assert (AS : forall u, ip u (ap CX N B (fun j => kmul (re (/ M)) (w j))) = kmul (re (/ M)) (ip u (ap CX N B w))).
        { intros u. rewrite <- ip_scal_r. apply inner_ext; [auto|]. intros; apply ap_scal. }
        rewrite !AS, !ip_scal_l, re_conj in P.
        assert (Q : ip v (ap CX N B w) = re (norm2 N w)) by (rewrite <- (self CX N B HB), <- ip_self; reflexivity).
        rewrite Q in P. change (ap CX N B v) with w in P. rewrite (ip_self w) in P. 
        assert (S : fst (ip v w) = expect N B v) by apply inner_expect.
        assert (T : fst (ip w (ap CX N B w)) = expect N B w) by apply inner_expect.
        rewrite ?fst_sub, ?fst_re_mul, ?fst_sub, ?fst_re_mul in P. rewrite S, T in P. cbn [re fst] in P. pose proof (HM w) as U.
        assert (I : 0 < / M) by (apply Rinv_0_lt_compat; exact M0).
        assert (V : / M * (/ M * expect N B w) <= / M * norm2 N w).
        { apply Rmult_le_compat_l; [lra|]. apply (Rmult_le_reg_l M); [lra|]. rewrite <- Rmult_assoc, Rinv_r, Rmult_1_l by lra. exact U. }
        apply (Rmult_le_reg_l (/ M)); [exact I|]. rewrite <- (Rmult_assoc (/ M) M), Rinv_l, Rmult_1_l by lra. lra. all: exact HB. }
      pose proof (norm2_nonneg N w) as W. apply (Rmult_le_reg_l ((1 + K) * M)); [apply Rmult_lt_0_compat; lra|].
      rewrite <- Rmult_assoc, Rinv_r, Rmult_1_l by (apply Rgt_not_eq; apply Rmult_lt_0_compat; lra). pose proof (Pos v). nra.
  Qed.

  (** *** One more state *)
  Section Step.
    Variables (X : dm) (K : nat) (psi : nat -> nat -> CX) (en : nat -> R).
    Hypothesis HX : hermitian N X.
    Hypothesis Orth : forall k l, (k < K)%nat -> (l < K)%nat -> ip (psi k) (psi l) = delta k l.
    Hypothesis Eig : forall k i, (k < K)%nat -> (i < N)%nat -> ap CX N X (psi k) i = kmul (re (en k)) (psi k i).

    (** the part in the directions of the states that are known *)
    Definition spanned (v : nat -> CX) (i : nat) : CX := ksum (fun k => kmul (ip (psi k) v) (psi k i)) (seq 0 K).
    Definition other (v : nat -> CX) (i : nat) : CX := ksub (v i) (spanned v i).
    Lemma ip_spanned : forall u v, ip u (spanned v) = ksum (fun k => kmul (ip (psi k) v) (ip u (psi k))) (seq 0 K).
    Proof.
      intros u v. unfold inner at 1, spanned. rewrite (ksum_ext CX _ (fun i => ksum (fun k => kmul (ip (psi k) v) (kmul (kconj (u i)) (psi k i))) (seq 0 K))).
      - rewrite ksum_swap. apply ksum_ext. intros k _. rewrite ksum_mul_l. reflexivity.
      - intros i _. rewrite <- ksum_mul_l. apply ksum_ext. intros k _. ring.
    Qed.
    Lemma ip_sub : forall u v w, ip u (fun i => ksub (v i) (w i)) = ksub (ip u v) (ip u w).
    Proof. intros. unfold inner. rewrite <- ksum_sub. apply ksum_ext. intros. ring. Qed.
    Lemma psi_spanned : forall k v, (k < K)%nat -> ip (psi k) (spanned v) = ip (psi k) v.
    Proof.
      intros k v Hk. rewrite ip_spanned. rewrite (ksum_single CX _ K k Hk).
      - rewrite Orth by assumption. unfold delta. rewrite Nat.eqb_refl. ring.
      - intros l Hl Nl. rewrite Orth by assumption. unfold delta. destruct (Nat.eqb_spec k l); [congruence|]. ring.
    Qed.
    Lemma psi_other : forall k v, (k < K)%nat -> ip (psi k) (other v) = k0.
    Proof. intros k v Hk. unfold other. rewrite ip_sub, psi_spanned by exact Hk. ring. Qed.
    Lemma spanned_other : forall v w, ip (other w) (spanned v) = k0.
    Proof.
      intros v w. rewrite ip_spanned. apply ksum_0. intros k Hk. apply in_seq in Hk. rewrite <- (inner_conj CX N (psi k) (other w)), psi_other by lia.
      rewrite kconj_0. ring.
    Qed.
    Lemma norm_other : forall v, norm2 N (other v) = norm2 N v - rsum (fun k => abs2 (ip (psi k) v)) K.
    Proof.
      intros v. rewrite <- inner_norm. unfold other at 2. rewrite ip_sub, spanned_other. rewrite <- (inner_conj CX N v (other v)). unfold other. rewrite ip_sub, ip_spanned.
      transitivity (fst (ip v v) - fst (ksum (fun k => kmul (ip (psi k) v) (ip v (psi k))) (seq 0 K))); [cbn; ring|].
      rewrite inner_norm, fst_sum. f_equal. apply rsum_ext. intros k _. rewrite <- (inner_conj CX N (psi k) v). destruct (ip (psi k) v). unfold abs2. cbn. ring.
    Qed.

    (** A direction that is not spanned, as long as there are fewer states than sites *)
    Lemma ip_site : forall k s, (s < N)%nat -> ip (psi k) (at_site s) = kconj (psi k s).
    Proof.
      intros k s Hs. unfold inner. rewrite (ksum_single CX _ N s Hs); unfold at_site, delta.
      - rewrite Nat.eqb_refl. ring.
      - intros j _ Hj. apply Nat.eqb_neq in Hj. rewrite Hj. ring.
    Qed.
    Lemma norm_site : forall s, (s < N)%nat -> norm2 N (at_site s) = 1.
    Proof.
      intros s Hs. rewrite <- inner_norm. unfold inner. rewrite (ksum_single CX _ N s Hs); unfold at_site, delta.
      - rewrite Nat.eqb_refl. cbn. ring.
      - intros j _ Hj. apply Nat.eqb_neq in Hj. rewrite Hj. ring.
    Qed.
    Lemma norm_psi : forall k, (k < K)%nat -> norm2 N (psi k) = 1.
    Proof. intros k Hk. rewrite <- inner_norm, Orth by assumption. unfold delta. rewrite Nat.eqb_refl. reflexivity. Qed.
    Lemma rsum_sub : forall f g n, rsum (fun i => f i - g i) n = rsum f n - rsum g n.
    Proof. intros f g n. induction n as [|n IH]; cbn [rsum]; [ring|]. rewrite IH. ring. Qed.
    Lemma site_total : rsum (fun s => norm2 N (other (at_site s))) N = INR N - INR K.
    Proof.
      rewrite (rsum_ext _ (fun s => 1 - rsum (fun k => abs2 (psi k s)) K)).
      - rewrite rsum_sub, rsum_const, rsum_swap, (rsum_ext _ (fun _ => 1)), rsum_const; [ring|]. intros k Hk. apply norm_psi. exact Hk.
      - intros s Hs. rewrite norm_other, norm_site by exact Hs. f_equal. apply rsum_ext. intros k _. rewrite ip_site by exact Hs. unfold abs2. cbn. ring.
    Qed.
    Lemma rsum_some : forall f n, 0 < rsum f n -> exists i, (i < n)%nat /\ 0 < f i.
    Proof.
      intros f. induction n as [|n IH]; cbn [rsum]; intros H; [lra|]. destruct (Rlt_dec 0 (f n)) as [P|P]; [exists n; split; [lia|exact P]|].
      destruct IH as (i & Hi & P'); [lra|]. exists i. split; [lia|exact P'].
    Qed.

    Definition free (v : nat -> CX) : Prop := forall k, (k < K)%nat -> ip (psi k) v = k0.
    Lemma free_scal : forall c v, free v -> free (fun j => kmul c (v j)).
    Proof. intros c v F k Hk. rewrite ip_scal_r, F by exact Hk. ring. Qed.
    Lemma unit_free : (K < N)%nat -> exists v, norm2 N v = 1 /\ free v.
    Proof.
      intros HK. destruct (rsum_some (fun s => norm2 N (other (at_site s))) N) as (s & Hs & P).
      { rewrite site_total. apply lt_INR in HK. lra. }
      set (v := other (at_site s)) in *. exists (fun j => kmul (re (/ sqrt (norm2 N v))) (v j)). split.
      - rewrite norm2_scal. assert (S : 0 < sqrt (norm2 N v)) by (apply sqrt_lt_R0; exact P). rewrite <- (sqrt_sqrt (norm2 N v)) at 3 by lra. field. lra.
      - apply free_scal. intros k Hk. apply psi_other. exact Hk.
    Qed.

    (** The highest energy in the free directions *)
    Lemma expect_scal : forall c v, expect N X (fun j => kmul (re c) (v j)) = c * c * expect N X v.
    Proof.
      intros c v. rewrite <- !inner_expect. rewrite (inner_ext CX N _ (ap CX N X (fun j => kmul (re c) (v j))) (fun j => kmul (re c) (v j)) (fun i => kmul (re c) (ap CX N X v i))) by (intros; try apply ap_scal; auto).
      rewrite ip_scal_r, ip_scal_l, re_conj, !fst_re_mul. ring.
    Qed.
    Lemma top : (K < N)%nat -> exists l, (forall v, free v -> expect N X v <= l * norm2 N v) /\
      forall c, 0 < c -> ~ (forall v, free v -> norm2 N v = 1 -> expect N X v <= l - c).
    Proof.
      intros HK. set (E := fun r => exists v, free v /\ norm2 N v = 1 /\ r = expect N X v).
      destruct (expect_bound N X) as (M & M0 & HM).
      destruct (completeness E) as (l & U & L).
      { exists M. intros r (v & _ & H1 & ->). specialize (HM v). rewrite H1 in HM. lra. }
      { destruct (unit_free HK) as (v & H1 & F). exists (expect N X v), v. auto. }
      exists l. split.
      - intros v F. destruct (Rlt_dec 0 (norm2 N v)) as [P|P].
        + assert (S : 0 < sqrt (norm2 N v)) by (apply sqrt_lt_R0; exact P). set (q := sqrt (norm2 N v)) in *. assert (Q : q * q = norm2 N v) by (apply sqrt_sqrt; lra).
          assert (V : expect N X (fun j => kmul (re (/ q)) (v j)) <= l).
          { apply U. eexists. split; [apply free_scal; exact F|]. split; [|reflexivity]. rewrite norm2_scal, <- Q. field. lra. }
          rewrite expect_scal in V. rewrite <- Q. apply (Rmult_le_compat_l (q * q)) in V; [|nra]. replace (q * q * (/ q * / q * expect N X v)) with (expect N X v) in V by (field; lra). lra.
        + assert (Z : forall i, (i < N)%nat -> v i = k0) by (apply norm2_zero; lra). pose proof (norm2_nonneg N v).
          replace (norm2 N v) with 0 by lra. rewrite <- inner_expect. unfold inner. rewrite (ksum_0 CX).
          * cbn. lra.
          * intros i Hi. apply in_seq in Hi. rewrite Z by lia. rewrite kconj_0. ring.
      - intros c Hc B. assert (Q : is_upper_bound E (l - c)) by (intros r' (v & F & H1 & ->); now apply B). specialize (L _ Q). lra.
    Qed.

    (** The matrix whose kernel is looked for *)
    Definition shift (l : R) : dm := fun i j =>
      kadd (ksub (kmul (re l) (delta i j)) (X i j)) (ksum (fun k => kmul (re (Rabs (en k - l) + 1)) (kmul (psi k i) (kconj (psi k j)))) (seq 0 K)).
    Lemma ap_shift : forall l v i, (i < N)%nat ->
      ap CX N (shift l) v i = kadd (ksub (kmul (re l) (v i)) (ap CX N X v i)) (ksum (fun k => kmul (re (Rabs (en k - l) + 1)) (kmul (ip (psi k) v) (psi k i))) (seq 0 K)).
    Proof.
      intros l v i Hi. unfold ap at 1, shift.
      transitivity (kadd (ksub (kmul (re l) (ap CX N delta v i)) (ap CX N X v i)) (ksum (fun j => ksum (fun k => kmul (re (Rabs (en k - l) + 1)) (kmul (psi k i) (kmul (kconj (psi k j)) (v j)))) (seq 0 K)) (seq 0 N))).
      - unfold ap. rewrite <- ksum_mul_l, <- ksum_sub, <- ksum_add. apply ksum_ext. intros j _.
        transitivity (kadd (ksub (kmul (re l) (kmul (delta i j) (v j))) (kmul (X i j) (v j))) (kmul (ksum (fun k => kmul (re (Rabs (en k - l) + 1)) (kmul (psi k i) (kconj (psi k j)))) (seq 0 K)) (v j))); [ring|].
        f_equal. rewrite <- ksum_mul_r. apply ksum_ext. intros k _. ring.
      - rewrite ap_delta by exact Hi. f_equal. rewrite ksum_swap. apply ksum_ext. intros k _. unfold inner. rewrite <- ksum_mul_r, <- ksum_mul_l. apply ksum_ext. intros j _. ring.
    Qed.
    Lemma shift_hermitian : forall l, hermitian N (shift l).
    Proof.
      intros l i j Hi Hj. unfold shift. rewrite kconj_add, kconj_sub, kconj_mul, re_conj, HX, ksum_conj by assumption. f_equal.
      - f_equal. f_equal. unfold delta. rewrite Nat.eqb_sym. destruct (j =? i)%nat; [apply kconj_1|apply kconj_0].
      - apply ksum_ext. intros k _. rewrite !kconj_mul, re_conj, kconj_conj. ring.
    Qed.
    Lemma shift_psi : forall l k i, (k < K)%nat -> (i < N)%nat -> ap CX N (shift l) (psi k) i = kmul (re (l - en k + Rabs (en k - l) + 1)) (psi k i).
    Proof.
      intros l k i Hk Hi. rewrite ap_shift, Eig by assumption. rewrite (ksum_single CX _ K k Hk).
      - rewrite Orth by assumption. unfold delta. rewrite Nat.eqb_refl. set (t := Rabs (en k - l)). destruct (psi k i) as [a b]. cbn. unfold cx_mul, cx_sub, cx_add, cx_opp, re. cbn. f_equal; ring.
      - intros m Hm Nm. rewrite Orth by assumption. unfold delta. destruct (Nat.eqb_spec m k); [congruence|]. ring.
    Qed.
    Lemma ap_spanned : forall l v i, (i < N)%nat -> ap CX N (shift l) (spanned v) i = ksum (fun k => kmul (kmul (re (l - en k + Rabs (en k - l) + 1)) (ip (psi k) v)) (psi k i)) (seq 0 K).
    Proof.
      intros l v i Hi. unfold ap, spanned. rewrite (ksum_ext CX _ (fun j => ksum (fun k => kmul (ip (psi k) v) (kmul (shift l i j) (psi k j))) (seq 0 K))).
      - rewrite ksum_swap. apply ksum_ext. intros k Hk. apply in_seq in Hk. rewrite ksum_mul_l. fold (ap CX N (shift l) (psi k) i). rewrite shift_psi by lia. ring.
      - intros j _. rewrite <- ksum_mul_l. apply ksum_ext. intros k _. ring.
    Qed.
    Lemma weight_pos : forall l k, 1 <= l - en k + Rabs (en k - l) + 1.
    Proof. intros l k. pose proof (Rle_abs (en k - l)). lra. Qed.
    Lemma shift_free : forall l w, free w -> expect N (shift l) w = l * norm2 N w - expect N X w.
    Proof.
      intros l w F. rewrite <- !inner_expect. rewrite (inner_ext CX N w _ w (fun i => ksub (kmul (re l) (w i)) (ap CX N X w i))); [|auto|].
      - rewrite ip_sub, ip_scal_r, ip_self. rewrite fst_sub, re_mul. reflexivity.
      - intros i Hi. rewrite ap_shift by exact Hi. rewrite (ksum_0 CX); [ring|]. intros k Hk. apply in_seq in Hk. rewrite F by lia. ring.
    Qed.
    Lemma shift_split : forall l v, expect N (shift l) v = expect N (shift l) (other v) + rsum (fun k => (l - en k + Rabs (en k - l) + 1) * abs2 (ip (psi k) v)) K.
    Proof.
      intros l v. set (B := shift l). set (w := other v). set (s := spanned v). pose proof (shift_hermitian l) as HB. fold B in HB.
      assert (Dec : forall u, ip u (ap CX N B v) = kadd (ip u (ap CX N B w)) (ip u (ap CX N B s))).
      { intros u. unfold inner. rewrite <- ksum_add. apply ksum_ext. intros i _. rewrite (ap_ext CX N B v (fun j => kadd (w j) (s j))); [rewrite ap_add_r; ring|].
        intros j _. unfold w, s, other. ring. }
      assert (Span : forall u, ip u (ap CX N B s) = ksum (fun k => kmul (kmul (re (l - en k + Rabs (en k - l) + 1)) (ip (psi k) v)) (ip u (psi k))) (seq 0 K)).
      { intros u. transitivity (ip u (fun i => ksum (fun k => kmul (kmul (re (l - en k + Rabs (en k - l) + 1)) (ip (psi k) v)) (psi k i)) (seq 0 K))).
        - apply inner_ext; [auto|]. intros i Hi. apply ap_spanned. exact Hi.
        - unfold inner at 1. rewrite (ksum_ext CX _ (fun i => ksum (fun k => kmul (kmul (re (l - en k + Rabs (en k - l) + 1)) (ip (psi k) v)) (kmul (kconj (u i)) (psi k i))) (seq 0 K))).
          + rewrite ksum_swap. apply ksum_ext. intros k _. rewrite ksum_mul_l. reflexivity.
          + intros i _. rewrite <- ksum_mul_l. apply ksum_ext. intros k _. ring. }
      rewrite <- !inner_expect. fold B. rewrite Dec, fst_add. f_equal.
      - (* <v, B w> = <w, B w> *)
        rewrite <- (self CX N B HB), <- (inner_conj CX N w (ap CX N B v)), Dec. rewrite Span, (ksum_0 CX _ (seq 0 K)).
        + rewrite <- (inner_conj CX N (ap CX N B w) w), (self CX N B HB). destruct (ip w (ap CX N B w)). cbn. ring.
        + intros k Hk. apply in_seq in Hk. rewrite <- (inner_conj CX N (psi k) w). unfold w. rewrite psi_other by lia. rewrite kconj_0. ring.
      - rewrite Span, fst_sum. apply rsum_ext. intros k _. rewrite <- (inner_conj CX N (psi k) v). set (t := Rabs _). destruct (ip (psi k) v). unfold abs2, re. cbn. ring.
    Qed.

    Lemma next_state : (K < N)%nat -> exists (l : R) x, norm2 N x = 1 /\ free x /\ forall i, (i < N)%nat -> ap CX N X x i = kmul (re l) (x i).
    Proof.
      intros HK. destruct (top HK) as (l & U & L).
      assert (Pos : forall v, 0 <= expect N (shift l) v).
      { intros v. rewrite shift_split. assert (F : free (other v)) by (intros k Hk; apply psi_other; exact Hk). rewrite shift_free by exact F.
        specialize (U _ F). assert (0 <= rsum (fun k => (l - en k + Rabs (en k - l) + 1) * abs2 (ip (psi k) v)) K); [|lra].
        apply rsum_nonneg. intros k _. pose proof (weight_pos l k). pose proof (abs2_nonneg (ip (psi k) v)). apply Rmult_le_pos; lra. }
      destruct (coercive (shift l) (shift_hermitian l) Pos) as [(x & Nx & Z)|(c & Hc & C)].
      - exists l. assert (F : free x).
        { intros k Hk. assert (E : ip (psi k) (ap CX N (shift l) x) = kmul (re (l - en k + Rabs (en k - l) + 1)) (ip (psi k) x)).
          { rewrite <- (self CX N _ (shift_hermitian l)). rewrite (inner_ext CX N _ x (fun i => kmul (re (l - en k + Rabs (en k - l) + 1)) (psi k i)) x) by (intros; try apply shift_psi; auto).
            rewrite ip_scal_l, re_conj. reflexivity. }
          rewrite (inner_ext CX N _ (ap CX N (shift l) x) (psi k) (fun _ => k0)) in E by auto. 
          assert (E0 : ip (psi k) (fun _ => k0) = k0) by (apply ksum_0; intros; ring). rewrite E0 in E. pose proof (weight_pos l k) as W. set (t := l - en k + Rabs (en k - l) + 1) in *.
          destruct (ip (psi k) x) as [a b]. cbn in E. unfold cx_mul, re in E. cbn in E. injection E as E1 E2. assert (a = 0) by nra. assert (b = 0) by nra. subst. reflexivity. }
        assert (Sq : 0 < sqrt (norm2 N x)) by (apply sqrt_lt_R0; exact Nx).
        exists (fun j => kmul (re (/ sqrt (norm2 N x))) (x j)). split; [|split].
        + rewrite norm2_scal. rewrite <- (sqrt_sqrt (norm2 N x)) at 3 by lra. field. lra.
        + apply free_scal. exact F.
        + intros i Hi. rewrite ap_scal. specialize (Z i Hi). rewrite ap_shift in Z by exact Hi. rewrite (ksum_0 CX) in Z by (intros k Hk; apply in_seq in Hk; rewrite F by lia; ring).
          assert (Q : ap CX N X x i = kmul (re l) (x i)).
          { transitivity (ksub (kmul (re l) (x i)) (kadd (ksub (kmul (re l) (x i)) (ap CX N X x i)) k0)); [ring|]. rewrite Z. ring. }
          rewrite Q. ring.
      - exfalso. apply (L c Hc). intros v F H1. specialize (C v). rewrite shift_free, H1 in C by exact F. lra.
    Qed.
  End Step.

  (** *** All states *)
  Lemma states : forall X, hermitian N X -> forall K, (K <= N)%nat -> exists psi en,
    (forall k l, (k < K)%nat -> (l < K)%nat -> ip (psi k) (psi l) = delta k l) /\
    (forall k i, (k < K)%nat -> (i < N)%nat -> ap CX N X (psi k) i = kmul (re (en k)) (psi k i)).
  Proof.
    intros X HX. induction K as [|K IH]; intros HK.
    - exists (fun _ _ => k0), (fun _ => 0). split; intros; lia.
    - destruct IH as (psi & en & O & E); [lia|]. destruct (next_state X K psi en HX O E) as (l & x & N1 & F & Ex); [lia|].
      exists (fun k => if (k =? K)%nat then x else psi k), (fun k => if (k =? K)%nat then l else en k). split.
      + intros k m Hk Hm. destruct (Nat.eqb_spec k K) as [->|Nk], (Nat.eqb_spec m K) as [->|Nm].
        * rewrite ip_self, N1. unfold delta. rewrite Nat.eqb_refl. reflexivity.
        * rewrite <- inner_conj. rewrite F by lia. unfold delta. destruct (Nat.eqb_spec K m); [lia|]. apply kconj_0.
        * rewrite F by lia. unfold delta. destruct (Nat.eqb_spec k K); [lia|]. reflexivity.
        * apply O; lia.
      + intros k i Hk Hi. destruct (Nat.eqb_spec k K) as [->|Nk]; [apply Ex; exact Hi|apply E; [lia|exact Hi]].
  Qed.
  Lemma rsum_zero_each : forall f n, (forall i, (i < n)%nat -> 0 <= f i) -> rsum f n = 0 -> forall i, (i < n)%nat -> f i = 0.
  Proof.
    intros f. induction n as [|n IH]; intros P Z i Hi; [lia|]. cbn [rsum] in Z. assert (0 <= rsum f n) by (apply rsum_nonneg; intros; apply P; lia).
    pose proof (P n ltac:(lia)). destruct (Nat.eq_dec i n); [subst; lra|]. apply IH; [intros; apply P; lia|lra|lia].
  Qed.
  Lemma complete : forall psi, (forall k l, (k < N)%nat -> (l < N)%nat -> ip (psi k) (psi l) = delta k l) ->
    forall i j, (i < N)%nat -> (j < N)%nat -> ksum (fun k => kmul (psi k i) (kconj (psi k j))) (seq 0 N) = delta i j.
  Proof.
    intros psi O i j Hi Hj. pose proof (site_total N psi O) as T. replace (INR N - INR N) with 0 in T by ring.
    pose proof (rsum_zero_each _ N (fun s _ => norm2_nonneg N (other N psi (at_site s))) T j Hj) as Z. cbn beta in Z.
    pose proof (norm2_zero (other N psi (at_site j)) ltac:(lra) i Hi) as W. unfold other, spanned in W.
    transitivity (ksub (at_site j i) (ksub (at_site j i) (ksum (fun k => kmul (ip (psi k) (at_site j)) (psi k i)) (seq 0 N)))).
    - transitivity (ksum (fun k => kmul (ip (psi k) (at_site j)) (psi k i)) (seq 0 N)); [|ring]. apply ksum_ext. intros k _. rewrite ip_site by exact Hj. ring.
    - rewrite W. unfold at_site, delta. destruct (i =? j)%nat; ring.
  Qed.
End Herm.

Theorem spectral_theorem : forall N H, hermitian N H -> exists psi en, eigenbasis N H psi en.
Proof.
  intros N H HH. destruct (states N H HH N (le_n N)) as (psi & en & O & E). exists psi, en. split; [exact E|]. apply complete. exact O.
Qed.
Print Assumptions spectral_theorem.
