(* Averages over independent draws: quadratic forms of a vector with random phases. *)
From Verif Require Import Base Scalar Kpm KpmSpec RSum Cplx.
From Coq Require Import Reals Lra Lia List Ring.
Import ListNotations.
Local Open Scope R_scope.

Section Mean.
  Variable M : nat.
  Hypothesis HM : (0 < M)%nat.
  (** Average of [f] over [n] independent draws, each of 0, ..., M - 1 equally likely. *)
  Fixpoint mean (n : nat) (f : list nat -> R) : R :=
    match n with
    | 0%nat => f []
    | S m => rsum (fun k => mean m (fun l => f (k :: l))) M / INR M
    end.
  Lemma INR_M : 0 < INR M. Proof. apply lt_0_INR. exact HM. Qed.
  Lemma mean_ext : forall n f g, (forall l, length l = n -> (forall k, In k l -> (k < M)%nat) -> f l = g l) -> mean n f = mean n g.
  Proof.
    intros n. induction n as [|n IH]; intros f g H; cbn [mean]; [apply H; [reflexivity|intros k []]|]. f_equal. apply rsum_ext. intros k Hk. apply IH.
    intros l Hl Hb. apply H; [cbn; lia|]. intros x [<-|Hx]; auto.
  Qed.
  Lemma mean_add : forall n f g, mean n (fun l => f l + g l) = mean n f + mean n g.
  Proof.
    intros n. induction n as [|n IH]; intros f g; cbn [mean]; [reflexivity|]. rewrite (rsum_ext _ (fun k => mean n (fun l => f (k :: l)) + mean n (fun l => g (k :: l)))) by (intros; apply IH).
    rewrite rsum_add. unfold Rdiv. ring.
  Qed.
  Lemma mean_scal : forall n c f, mean n (fun l => c * f l) = c * mean n f.
  Proof.
    intros n. induction n as [|n IH]; intros c f; cbn [mean]; [reflexivity|]. rewrite (rsum_ext _ (fun k => c * mean n (fun l => f (k :: l)))) by (intros; apply IH).
    rewrite rsum_scal. unfold Rdiv. ring.
  Qed.
  Lemma mean_const : forall n c, mean n (fun _ => c) = c.
  Proof. intros n c. induction n as [|n IH]; cbn [mean]; [reflexivity|]. rewrite IH, rsum_const. pose proof INR_M. field. lra. Qed.
  Lemma mean_rsum : forall n m (f : nat -> list nat -> R), mean n (fun l => rsum (fun i => f i l) m) = rsum (fun i => mean n (f i)) m.
  Proof.
    intros n m f. induction m as [|m IH]; cbn [rsum]; [rewrite mean_const; reflexivity|]. rewrite mean_add, IH. reflexivity.
  Qed.
  Lemma mean_le : forall n f g, (forall l, length l = n -> (forall k, In k l -> (k < M)%nat) -> f l <= g l) -> mean n f <= mean n g.
  Proof.
    intros n. induction n as [|n IH]; intros f g H; cbn [mean]; [apply H; [reflexivity|intros k []]|]. pose proof INR_M.
    apply Rmult_le_compat_r; [left; apply Rinv_0_lt_compat; assumption|]. 
    assert (Q : 0 <= rsum (fun k => mean n (fun l => g (k :: l)) - mean n (fun l => f (k :: l))) M).
    { apply rsum_nonneg. intros k Hk. assert (mean n (fun l => f (k :: l)) <= mean n (fun l => g (k :: l))); [|lra]. apply IH. intros l Hl Hb. apply H; [cbn; lia|]. intros x [<-|Hx]; auto. }
    rewrite (rsum_ext _ (fun k => mean n (fun l => g (k :: l)) + (-1) * mean n (fun l => f (k :: l)))) in Q by (intros; ring). rewrite rsum_add, rsum_scal in Q. lra.
  Qed.
  Lemma mean_app : forall a b f, mean (a + b) f = mean a (fun l => mean b (fun l' => f (l ++ l'))).
  Proof. intros a. induction a as [|a IH]; intros b f; cbn [mean Nat.add app]; [reflexivity|]. f_equal. apply rsum_ext. intros k _. rewrite IH. reflexivity. Qed.
  (** the first draw comes last *)
  Lemma mean_S : forall n f, mean (S n) f = mean n (fun l => rsum (fun k => f (k :: l)) M / INR M).
  Proof.
    intros n f. cbn [mean]. rewrite (mean_ext n _ (fun l => / INR M * rsum (fun k => f (k :: l)) M)) by (intros; unfold Rdiv; ring). rewrite mean_scal, mean_rsum. unfold Rdiv. ring.
  Qed.

  (** ** Vectors of phases *)
  Variable z : nat -> CX.
  Hypothesis z_unit : forall k, (k < M)%nat -> abs2 (z k) = 1.
  Hypothesis z_zero : ksum z (seq 0 M) = k0.
  Lemma z_re : rsum (fun k => fst (z k)) M = 0. Proof. rewrite <- fst_sum, z_zero. reflexivity. Qed.
  Lemma z_im : rsum (fun k => snd (z k)) M = 0. Proof. rewrite <- snd_sum, z_zero. reflexivity. Qed.
  Definition phases (l : list nat) (i : nat) : CX := z (nth i l 0%nat).

  Local Notation "x ** y" := (@kmul CX x y) (at level 40, left associativity).
  Local Notation cj := (@kconj CX).

  (** The mean of a component of one phase times a number is zero. *)
  Lemma one_re : forall c : CX, rsum (fun k => fst (cj (z k) ** c)) M = 0.
  Proof.
    intros c. rewrite (rsum_ext _ (fun k => fst (z k) * fst c + snd (z k) * snd c)) by (intros; cbn; ring). rewrite rsum_add, !rsum_scal_r, z_re, z_im. ring.
  Qed.
  Lemma one_re' : forall c : CX, rsum (fun k => fst (c ** z k)) M = 0.
  Proof.
    intros c. rewrite (rsum_ext _ (fun k => fst (z k) * fst c + snd (z k) * - snd c)) by (intros; cbn; ring). rewrite rsum_add, !rsum_scal_r, z_re, z_im. ring.
  Qed.

  (** [v^+ A v], real part *)
  Definition quad (n : nat) (A : nat -> nat -> CX) (v : nat -> CX) : R := rsum (fun i => rsum (fun j => fst (cj (v i) ** A i j ** v j)) n) n.
  Definition tail2 (A : nat -> nat -> CX) : nat -> nat -> CX := fun i j => A (S i) (S j).
  Definition trace (n : nat) (A : nat -> nat -> CX) : R := rsum (fun i => fst (A i i)) n.
  Definition square (n : nat) (A : nat -> nat -> CX) : R := rsum (fun i => rsum (fun j => abs2 (A i j)) n) n.
  Lemma quad_S : forall n A v, quad (S n) A v = abs2 (v 0%nat) * fst (A 0 0)%nat
    + (rsum (fun j => fst (cj (v 0%nat) ** A 0%nat (S j) ** v (S j))) n + rsum (fun i => fst (cj (v (S i)) ** A (S i) 0%nat ** v 0%nat)) n)
    + quad n (tail2 A) (fun i => v (S i)).
  Proof.
    intros n A v. unfold quad. rewrite rsum_S_l. rewrite rsum_S_l. rewrite (rsum_ext (fun i => rsum (fun j => fst (cj (v (S i)) ** A (S i) j ** v j)) (S n))
      (fun i => fst (cj (v (S i)) ** A (S i) 0%nat ** v 0%nat) + rsum (fun j => fst (cj (v (S i)) ** A (S i) (S j) ** v (S j))) n)) by (intros; apply rsum_S_l).
    rewrite rsum_add. unfold tail2. assert (E : fst (cj (v 0%nat) ** A 0%nat 0%nat ** v 0%nat) = abs2 (v 0%nat) * fst (A 0%nat 0%nat)) by (destruct (v 0%nat), (A 0 0)%nat; unfold abs2; cbn; ring).
    rewrite E. ring.
  Qed.
  Lemma phases_S : forall k l i, phases (k :: l) (S i) = phases l i. Proof. reflexivity. Qed.
  Lemma phases_0 : forall k l, phases (k :: l) 0 = z k. Proof. reflexivity. Qed.

  (** The mean of the quadratic form is the trace. *)
  Lemma mean_quad : forall n A, mean n (fun l => quad n A (phases l)) = trace n A.
  Proof.
    intros n. induction n as [|n IH]; intros A; [reflexivity|]. rewrite mean_S. unfold trace. rewrite rsum_S_l. change (rsum (fun i => fst (A (S i) (S i))) n) with (trace n (tail2 A)). rewrite <- IH.
    rewrite <- (mean_const n (fst (A 0 0)%nat)). rewrite <- mean_add. apply mean_ext. intros l _ _. pose proof INR_M as P.
    rewrite (rsum_ext _ (fun k => fst (A 0 0)%nat + (rsum (fun j => fst (cj (z k) ** (A 0%nat (S j) ** phases l j))) n + rsum (fun i => fst (cj (phases l i) ** A (S i) 0%nat ** z k)) n) + quad n (tail2 A) (phases l))).
    2: { intros k Hk. rewrite quad_S, phases_0, z_unit by exact Hk. rewrite Rmult_1_l. do 3 f_equal. apply rsum_ext. intros j _. rewrite phases_S. destruct (z k), (A 0%nat (S j)), (phases l j). cbn. ring. }
    rewrite !rsum_add, !rsum_const, rsum_swap, (rsum_swap (fun k i => fst (cj (phases l i) ** A (S i) 0%nat ** z k))).
    rewrite (rsum_0 (fun j => rsum (fun i => fst (cj (z i) ** (A 0%nat (S j) ** phases l j))) M)) by (intros; apply one_re).
    rewrite (rsum_0 (fun j => rsum (fun i => fst (cj (phases l j) ** A (S j) 0%nat ** z i)) M)) by (intros; apply one_re'). field. lra.
  Qed.

  (** Mean square of a linear form. *)
  Definition lin (n : nat) (a v : nat -> CX) : CX := ksum (fun j => a j ** v j) (seq 0 n).
  Lemma lin_S : forall n a v, lin (S n) a v = kadd (a 0%nat ** v 0%nat) (lin n (fun j => a (S j)) (fun j => v (S j))).
  Proof. intros n a v. unfold lin. cbn [seq]. rewrite ksum_cons, <- seq_shift, ksum_map. reflexivity. Qed.
  Lemma mean_lin : forall n a, mean n (fun l => abs2 (lin n a (phases l))) = rsum (fun j => abs2 (a j)) n.
  Proof.
    intros n. induction n as [|n IH]; intros a; [cbn; unfold abs2; cbn; ring|]. rewrite mean_S, rsum_S_l, <- IH, <- (mean_const n (abs2 (a 0%nat))), <- mean_add. apply mean_ext. intros l _ _. pose proof INR_M.
    set (c := lin n (fun j => a (S j)) (phases l)).
    rewrite (rsum_ext _ (fun k => (abs2 (a 0%nat) + abs2 c) + 2 * fst (cj (z k) ** (cj (a 0%nat) ** c)))).
    2: { intros k Hk. rewrite lin_S. change (lin n (fun j => a (S j)) (fun j => phases (k :: l) (S j))) with c. rewrite phases_0.
      pose proof (z_unit k Hk) as U. destruct (z k) as [x y], (a 0%nat) as [p q], c as [s t]. unfold abs2 in *. cbn in *. 
      transitivity ((p * p + q * q) * (x * x + y * y) + (s * s + t * t) + 2 * ((p * s + q * t) * x - (- (y * (p * t + - q * s))))); [ring|rewrite U; ring]. }
    rewrite rsum_add, rsum_const, rsum_scal, one_re. field. lra.
  Qed.

  (** Mean square deviation. *)
  Lemma fst_cj_bound : forall k c, (k < M)%nat -> fst (cj (z k) ** c) * fst (cj (z k) ** c) <= abs2 c.
  Proof.
    intros k [s t] Hk. pose proof (z_unit k Hk) as U. destruct (z k) as [x y]. unfold abs2 in *. cbn in *.
    assert (Q : 0 <= Rsqr (x * t - y * s)) by apply Rle_0_sqr. unfold Rsqr in Q.
    replace (s * s + t * t) with ((s * s + t * t) * (x * x + y * y)) by (rewrite U; ring).
    assert (W : (s * s + t * t) * (x * x + y * y) = (x * s - - y * t) * (x * s - - y * t) + (x * t - y * s) * (x * t - y * s)) by ring. lra.
  Qed.
  Lemma mean_dev : forall n A, hermitian n A ->
    mean n (fun l => (quad n A (phases l) - trace n A) * (quad n A (phases l) - trace n A)) <= 2 * square n A.
  Proof.
    intros n. induction n as [|n IH]; intros A HA; [cbn; unfold quad, trace, square; cbn; lra|].
    assert (HA' : hermitian n (tail2 A)) by (intros i j Hi Hj; apply HA; lia).
    specialize (IH (tail2 A) HA'). set (c := fun l => lin n (fun j => A 0%nat (S j)) (phases l)). set (D := fun l => quad n (tail2 A) (phases l) - trace n (tail2 A)) in *.
    rewrite mean_S. apply (Rle_trans _ (mean n (fun l => 4 * abs2 (c l) + D l * D l))).
    - apply mean_le. intros l _ _. pose proof INR_M as P.
      assert (E : forall k, (k < M)%nat -> quad (S n) A (phases (k :: l)) - trace (S n) A = 2 * fst (cj (z k) ** c l) + D l).
      { intros k Hk. rewrite quad_S, phases_0, z_unit by exact Hk. unfold trace. rewrite rsum_S_l.
        assert (E1 : rsum (fun j => fst (cj (z k) ** A 0%nat (S j) ** phases (k :: l) (S j))) n = fst (cj (z k) ** c l)).
        { unfold c, lin. rewrite <- ksum_mul_l, fst_sum. apply rsum_ext. intros j _. rewrite phases_S. destruct (z k), (A 0%nat (S j)), (phases l j). cbn. ring. }
        assert (E2 : rsum (fun i => fst (cj (phases (k :: l) (S i)) ** A (S i) 0%nat ** z k)) n = fst (cj (z k) ** c l)).
        { rewrite <- E1. apply rsum_ext. intros j Hj. rewrite phases_S. rewrite <- (HA 0%nat (S j)) by lia. destruct (z k), (A 0%nat (S j)), (phases l j). cbn. ring. }
        rewrite E1, E2. change (quad n (tail2 A) (fun i => phases (k :: l) (S i))) with (quad n (tail2 A) (phases l)). unfold D, trace, tail2. ring. }
      rewrite (rsum_ext _ (fun k => 4 * (fst (cj (z k) ** c l) * fst (cj (z k) ** c l)) + (4 * D l * fst (cj (z k) ** c l) + D l * D l))) by (intros k Hk; rewrite E by exact Hk; ring).
      rewrite !rsum_add, !rsum_scal, one_re, rsum_const.
      assert (B : rsum (fun k => fst (cj (z k) ** c l) * fst (cj (z k) ** c l)) M <= INR M * abs2 (c l)).
      { rewrite <- rsum_const. assert (Q : 0 <= rsum (fun k => abs2 (c l) - fst (cj (z k) ** c l) * fst (cj (z k) ** c l)) M) by (apply rsum_nonneg; intros k Hk; pose proof (fst_cj_bound k (c l) Hk); lra).
        rewrite (rsum_ext _ (fun k => abs2 (c l) + (-1) * (fst (cj (z k) ** c l) * fst (cj (z k) ** c l)))) in Q by (intros; ring). rewrite rsum_add, rsum_scal in Q. lra. }
      apply (Rmult_le_reg_r (INR M)); [exact P|]. unfold Rdiv. rewrite Rmult_assoc, Rinv_l by lra. lra.
    - rewrite mean_add, mean_scal. unfold c. rewrite mean_lin. unfold D in *.
      assert (S1 : square (S n) A = abs2 (A 0 0)%nat + 2 * rsum (fun j => abs2 (A 0%nat (S j))) n + square n (tail2 A)).
      { unfold square. rewrite rsum_S_l, rsum_S_l. rewrite (rsum_ext (fun i => rsum (fun j => abs2 (A (S i) j)) (S n)) (fun i => abs2 (A (S i) 0%nat) + rsum (fun j => abs2 (A (S i) (S j))) n)) by (intros; apply rsum_S_l).
        rewrite rsum_add. rewrite (rsum_ext (fun i => abs2 (A (S i) 0%nat)) (fun j => abs2 (A 0%nat (S j)))); [unfold tail2; ring|].
        intros j Hj. rewrite <- (HA 0%nat (S j)) by lia. destruct (A 0%nat (S j)). unfold abs2. cbn. ring. }
      rewrite S1. pose proof (abs2_nonneg (A 0 0)%nat). lra.
  Qed.

  (** ** Several vectors *)
  Variable N : nat.
  Definition chunk (u : list nat) (k : nat) : nat -> CX := fun i => phases u (k * N + i)%nat.
  Lemma chunk_0 : forall l l', length l = N -> forall i, (i < N)%nat -> chunk (l ++ l') 0 i = phases l i.
  Proof. intros l l' Hl i Hi. unfold chunk, phases. cbn [Nat.mul Nat.add]. rewrite app_nth1 by lia. reflexivity. Qed.
  Lemma chunk_S : forall l l' k i, length l = N -> chunk (l ++ l') (S k) i = chunk l' k i.
  Proof. intros l l' k i Hl. unfold chunk, phases. rewrite app_nth2 by lia. do 2 f_equal. lia. Qed.
  Lemma quad_ext : forall n A u v, (forall i, (i < n)%nat -> u i = v i) -> quad n A u = quad n A v.
  Proof. intros n A u v H. unfold quad. apply rsum_ext. intros i Hi. apply rsum_ext. intros j Hj. rewrite !H by assumption. reflexivity. Qed.

  Lemma mean_several : forall v A, mean (v * N) (fun u => rsum (fun k => quad N A (chunk u k)) v) = INR v * trace N A.
  Proof.
    intros v A. induction v as [|v IH]; [cbn; ring|]. rewrite S_INR. change (S v * N)%nat with (N + v * N)%nat. rewrite mean_app.
    rewrite (mean_ext N _ (fun l => quad N A (phases l) + INR v * trace N A)).
    - rewrite mean_add, mean_quad, mean_const. ring.
    - intros l Hl _. rewrite <- IH, <- (mean_const (v * N) (quad N A (phases l))), <- mean_add. apply mean_ext. intros l' _ _. rewrite rsum_S_l. f_equal.
      + apply quad_ext. intros i Hi. apply chunk_0; assumption.
      + apply rsum_ext. intros k _. apply quad_ext. intros i _. apply chunk_S. exact Hl.
  Qed.
  Lemma dev_several : forall v A, hermitian N A ->
    mean (v * N) (fun u => (rsum (fun k => quad N A (chunk u k)) v - INR v * trace N A) * (rsum (fun k => quad N A (chunk u k)) v - INR v * trace N A)) <= INR v * (2 * square N A).
  Proof.
    intros v A HA. induction v as [|v IH]; [cbn; lra|]. change (S v * N)%nat with (N + v * N)%nat. rewrite mean_app.
    set (t := trace N A) in *. set (W := fun u => rsum (fun k => quad N A (chunk u k)) v - INR v * t) in *.
    rewrite (mean_ext N _ (fun l => (quad N A (phases l) - t) * (quad N A (phases l) - t) + mean (v * N) (fun u => W u * W u))).
    - rewrite mean_add, mean_const. pose proof (mean_dev N A HA) as Q. fold t in Q. rewrite S_INR. change (mean (v * N) (fun u => W u * W u) <= INR v * (2 * square N A)) in IH. lra.
    - intros l Hl _. rewrite <- (mean_const (v * N) ((quad N A (phases l) - t) * (quad N A (phases l) - t))), <- mean_add.
      rewrite (mean_ext (v * N) _ (fun u => ((quad N A (phases l) - t) * (quad N A (phases l) - t) + W u * W u) + 2 * (quad N A (phases l) - t) * W u)).
      + rewrite mean_add, mean_scal. assert (Z : mean (v * N) W = 0).
        { unfold W. rewrite (mean_ext _ _ (fun u => rsum (fun k => quad N A (chunk u k)) v + - (INR v * t))) by (intros; ring). rewrite mean_add, mean_const, mean_several. unfold t. ring. }
        rewrite Z. ring.
      + intros u _ _. rewrite rsum_S_l. rewrite (quad_ext N A (chunk (l ++ u) 0) (phases l)) by (intros; apply chunk_0; assumption).
        rewrite (rsum_ext (fun i => quad N A (chunk (l ++ u) (S i))) (fun k => quad N A (chunk u k))) by (intros k _; apply quad_ext; intros i _; apply chunk_S; exact Hl).
        rewrite S_INR. unfold W. ring.
  Qed.
End Mean.
