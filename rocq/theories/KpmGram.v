(* Chebyshev moments of a Hermitian matrix as Gram sums: with t_n = T_n(X) r and
   u_n = U_(n-1)(X) r,  <t_n, t_m> + <u_n, (1 - X^2) u_m> = <r, T_|n-m|(X) r>. *)
From Verif Require Import Base Scalar KpmSpec KpmCheb.
From Coq Require Import Ring.

Section Gram.
  Variable R : scalar.
  Add Ring Rring : (k_ring R).
  Local Open Scope k_scope.
  Variable N : nat.
  Variable X : dmat R.
  Hypothesis HX : hermitian N X.
  Local Notation A := (ap R N X).
  Local Notation "<< u , v >>" := (inner R N u v).
  Definition vsub (u v : nat -> R) : nat -> R := fun i => u i - v i.
  Definition vadd (u v : nat -> R) : nat -> R := fun i => u i + v i.
  (** 1 - X^2 *)
  Definition rest (v : nat -> R) : nat -> R := vsub v (A (A v)).

  Lemma ksum_sub : forall {B} (f g : B -> R) l, ksum (fun a => f a - g a) l = ksum f l - ksum g l.
  Proof. intros B f g l. induction l as [|a l IH]; [rewrite !ksum_nil; ring|]. rewrite !ksum_cons, IH. ring. Qed.
  Lemma in_sub_r : forall u v w, << u, vsub v w >> = << u, v >> - << u, w >>.
  Proof. intros. unfold inner, vsub. rewrite <- ksum_sub. apply ksum_ext. intros. ring. Qed.
  Lemma in_sub_l : forall u v w, << vsub v w, u >> = << v, u >> - << w, u >>.
  Proof. intros. unfold inner, vsub. rewrite <- ksum_sub. apply ksum_ext. intros. rewrite kconj_sub. ring. Qed.
  Lemma in_add_r : forall u v w, << u, vadd v w >> = << u, v >> + << u, w >>.
  Proof. intros. unfold inner, vadd. rewrite <- ksum_add. apply ksum_ext. intros. ring. Qed.
  Lemma in_add_l : forall u v w, << vadd v w, u >> = << v, u >> + << w, u >>.
  Proof. intros. unfold inner, vadd. rewrite <- ksum_add. apply ksum_ext. intros. rewrite kconj_add. ring. Qed.
  Lemma self : forall u v, << A u, v >> = << u, A v >>.
  Proof. intros. apply ap_self. exact HX. Qed.

  Variable r : nat -> R.
  Fixpoint rot (n : nat) : (nat -> R) * (nat -> R) :=
    match n with
    | 0 => (r, fun _ => k0)
    | S m => let (t, u) := rot m in (vsub (A t) (rest u), vadd t (A u))
    end.
  Definition tv n := fst (rot n).
  Definition uv n := snd (rot n).
  Lemma tv_S : forall n, tv (S n) = vsub (A (tv n)) (rest (uv n)).
  Proof. intros n. unfold tv, uv. cbn [rot]. destruct (rot n). reflexivity. Qed.
  Lemma uv_S : forall n, uv (S n) = vadd (tv n) (A (uv n)).
  Proof. intros n. unfold tv, uv. cbn [rot]. destruct (rot n). reflexivity. Qed.

  Lemma ap_sub : forall u v i, A (vsub u v) i = A u i - A v i.
  Proof. intros. unfold ap, vsub. rewrite <- ksum_sub. apply ksum_ext. intros. ring. Qed.
  Lemma ap_add : forall u v i, A (vadd u v) i = A u i + A v i.
  Proof. intros. unfold ap, vadd. rewrite <- ksum_add. apply ksum_ext. intros. ring. Qed.
  Lemma ap_0 : forall i, A (fun _ => k0) i = k0.
  Proof. intros. unfold ap. apply ksum_0. intros. ring. Qed.

  (** t_n is the Chebyshev vector. *)
  Lemma tv_SS : forall n i, tv (S (S n)) i = (k1 + k1) * A (tv (S n)) i - tv n i.
  Proof.
    intros n i. rewrite (tv_S (S n)). unfold vsub at 1. unfold rest, vsub at 1. rewrite uv_S. unfold vadd at 1.
    rewrite (ap_ext R N X (A (vadd (tv n) (A (uv n)))) (vadd (A (tv n)) (A (A (uv n))))) by (intros; apply ap_add). rewrite ap_add.
    assert (E : A (tv (S n)) i = A (A (tv n)) i - (A (uv n) i - A (A (A (uv n))) i)).
    { rewrite tv_S, ap_sub. unfold rest. rewrite ap_sub. reflexivity. }
    rewrite E. ring.
  Qed.
  Lemma tv_cv : forall n i, tv n i = cv R N X r n i.
  Proof.
    assert (G : forall n, (forall i, tv n i = cv R N X r n i) /\ (forall i, tv (S n) i = cv R N X r (S n) i)).
    { induction n as [|n (IH0 & IH1)].
      - split; [reflexivity|]. intros i. rewrite tv_S. unfold vsub, rest, vsub. change (uv 0) with (fun _ : nat => @k0 R). cbv beta.
        rewrite (ap_ext R N X (A (fun _ => k0)) (fun _ => k0)) by (intros; apply ap_0). rewrite ap_0. cbn. change (tv 0) with r. ring.
      - split; [exact IH1|]. intros i. rewrite tv_SS, IH0, (ap_ext R N X _ _ i (fun j _ => IH1 j)). reflexivity. }
    intros n. apply G.
  Qed.

  Definition gram n m := << tv n, tv m >> + << uv n, rest (uv m) >>.
  Definition mom n := << r, cv R N X r n >>.

  Lemma in_rest : forall u v, << u, rest v >> = << u, v >> - << u, A (A v) >>.
  Proof. intros. unfold rest. apply in_sub_r. Qed.
  Lemma in_A_sub : forall u v w, << u, A (vsub v w) >> = << u, A v >> - << u, A w >>.
  Proof. intros. rewrite <- !self. apply in_sub_r. Qed.
  Lemma in_A_add : forall u v w, << u, A (vadd v w) >> = << u, A v >> + << u, A w >>.
  Proof. intros. rewrite <- !self. apply in_add_r. Qed.
  Lemma in_A_rest : forall u v, << u, A (rest v) >> = << u, A v >> - << u, A (A (A v)) >>.
  Proof. intros. rewrite <- self, in_rest, self, self. reflexivity. Qed.
  Lemma in_AA_sub : forall u v w, << u, A (A (vsub v w)) >> = << u, A (A v) >> - << u, A (A w) >>.
  Proof. intros. rewrite <- self, in_A_sub, !self. reflexivity. Qed.
  Lemma in_AA_add : forall u v w, << u, A (A (vadd v w)) >> = << u, A (A v) >> + << u, A (A w) >>.
  Proof. intros. rewrite <- self, in_A_add, !self. reflexivity. Qed.
  Lemma in_AA_rest : forall u v, << u, A (A (rest v)) >> = << u, A (A v) >> - << u, A (A (A (A v))) >>.
  Proof. intros. rewrite <- self, in_A_rest, !self. reflexivity. Qed.
  Lemma in_AAA_add : forall u v w, << u, A (A (A (vadd v w))) >> = << u, A (A (A v)) >> + << u, A (A (A w)) >>.
  Proof. intros. rewrite <- self, in_AA_add, !self. reflexivity. Qed.
  Lemma in_AAA_sub : forall u v w, << u, A (A (A (vsub v w))) >> = << u, A (A (A v)) >> - << u, A (A (A w)) >>.
  Proof. intros. rewrite <- self, in_AA_sub, !self. reflexivity. Qed.
  Lemma rest_in : forall u v, << rest u, v >> = << u, v >> - << u, A (A v) >>.
  Proof. intros. unfold rest. rewrite in_sub_l, !self. reflexivity. Qed.
  Hint Rewrite in_sub_l in_add_l rest_in in_sub_r in_add_r in_rest in_A_sub in_A_add in_A_rest in_AA_sub in_AA_add in_AA_rest in_AAA_add in_AAA_sub self : gram.

  Lemma gram_step : forall n m, gram (S n) (S m) = gram n m.
  Proof. intros n m. unfold gram. rewrite !tv_S, !uv_S. autorewrite with gram. ring. Qed.

  Lemma in_0_l : forall v, << (fun _ => k0), v >> = k0.
  Proof. intros. unfold inner. apply ksum_0. intros. rewrite kconj_0. ring. Qed.
  Lemma in_0_r : forall v, << v, (fun _ => k0) >> = k0.
  Proof. intros. unfold inner. apply ksum_0. intros. ring. Qed.
  Lemma gram_0_l : forall m, gram 0 m = mom m.
  Proof.
    intros m. unfold gram, mom. change (tv 0) with r. change (uv 0) with (fun _ : nat => @k0 R). rewrite in_0_l.
    rewrite (inner_ext R N r (tv m) r (cv R N X r m)) by (auto; intros; apply tv_cv). ring.
  Qed.
  Lemma gram_0_r : forall n, gram n 0 = mom n.
  Proof.
    intros n. unfold gram, mom. change (tv 0) with r. change (uv 0) with (fun _ : nat => @k0 R). rewrite in_rest, in_0_r.
    rewrite <- !self, in_0_r. rewrite (inner_ext R N (tv n) r (cv R N X r n) r) by (auto; intros; apply tv_cv). rewrite cv_self by exact HX. ring.
  Qed.
  Lemma gram_ok : forall n m, gram n m = mom ((n - m) + (m - n))%nat.
  Proof.
    induction n as [|n IH]; intros m; [rewrite gram_0_l; f_equal; lia|]. destruct m as [|m]; [rewrite gram_0_r; f_equal; lia|].
    rewrite gram_step, IH. reflexivity.
  Qed.

  (** ** Linear combinations with real coefficients *)
  Definition comb (x : nat -> R) (f : nat -> nat -> R) (M : nat) : nat -> R := fun i => ksum (fun n => x n * f n i) (seq 0 M).
  Lemma in_comb_r : forall x f M u, << u, comb x f M >> = ksum (fun n => x n * << u, f n >>) (seq 0 M).
  Proof.
    intros. unfold inner, comb.
    transitivity (ksum (fun i => ksum (fun n => kconj (u i) * (x n * f n i)) (seq 0 M)) (seq 0 N)).
    { apply ksum_ext. intros. rewrite ksum_mul_l. reflexivity. }
    rewrite ksum_swap. apply ksum_ext. intros n _. rewrite <- ksum_mul_l. apply ksum_ext. intros. ring.
  Qed.
  Lemma in_comb_l : forall x f M u, (forall n, kconj (x n) = x n) -> << comb x f M, u >> = ksum (fun n => x n * << f n, u >>) (seq 0 M).
  Proof.
    intros x f M u Hx. unfold inner, comb.
    transitivity (ksum (fun i => ksum (fun n => x n * (kconj (f n i) * u i)) (seq 0 M)) (seq 0 N)).
    { apply ksum_ext. intros. rewrite ksum_conj, <- ksum_mul_r. apply ksum_ext. intros. rewrite kconj_mul, Hx. ring. }
    rewrite ksum_swap. apply ksum_ext. intros n _. rewrite <- ksum_mul_l. reflexivity.
  Qed.
  Lemma gram_sum : forall x M, (forall n, kconj (x n) = x n) ->
    << comb x tv M, comb x tv M >> + << comb x uv M, rest (comb x uv M) >>
    = ksum (fun n => ksum (fun m => x n * (x m * mom ((n - m) + (m - n))%nat)) (seq 0 M)) (seq 0 M).
  Proof.
    intros x M Hx. rewrite in_rest, <- self, <- self.
    rewrite !in_comb_r.
    transitivity (ksum (fun m => ksum (fun n => x n * (x m * gram n m)) (seq 0 M)) (seq 0 M)).
    - rewrite <- ksum_sub, <- ksum_add. apply ksum_ext. intros m _. rewrite !self, !in_comb_l by exact Hx.
      rewrite <- ksum_mul_l, <- !ksum_mul_l, <- ksum_sub, <- ksum_add. apply ksum_ext. intros n _. unfold gram. rewrite in_rest. ring.
    - rewrite ksum_swap. apply ksum_ext. intros n _. apply ksum_ext. intros m _. rewrite gram_ok. reflexivity.
  Qed.

  (** 2 (1 - X^2) = (1 + X)(1 - X)(1 + X) + (1 - X)(1 + X)(1 - X) *)
  Lemma rest_split : forall w, let p := vadd w (A w) in let q := vsub w (A w) in
    << w, rest w >> + << w, rest w >> = (<< p, p >> - << p, A p >>) + (<< q, q >> + << q, A q >>).
  Proof. intros w p q. unfold p, q. autorewrite with gram. ring. Qed.
End Gram.
