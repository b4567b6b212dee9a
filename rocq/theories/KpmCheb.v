(* The vectors of the moment loops are Chebyshev polynomials of the scaled Hamiltonian applied to
   the start vector, and the product formula of the doubled-rate collector. *)
From Verif Require Import Base Scalar Kpm KpmSpec KpmVec KpmLoops KpmMoments KpmOptimized.
From Coq Require Import Ring Permutation.

Section Cheb.
  Variable R : scalar.
  Variable half : R.
  Hypothesis Hhalf : (half + half)%k = k1.
  Add Ring Rring : (k_ring R).
  Local Open Scope k_scope.
  Local Notation csr := (list (list (nat * R))).

  (** Dense matrix times vector. *)
  Definition ap (N : nat) (A : dmat R) (v : nat -> R) (i : nat) : R := ksum (fun j => A i j * v j) (seq 0 N).
  Definition inner (N : nat) (u v : nat -> R) : R := ksum (fun i => kconj (u i) * v i) (seq 0 N).
  (** The Chebyshev vectors. *)
  Fixpoint cv (N : nat) (X : dmat R) (v : nat -> R) (n : nat) : nat -> R :=
    match n with
    | 0 => v
    | S m => match m with
             | 0 => ap N X v
             | S p => fun i => (k1 + k1) * ap N X (cv N X v m) i - cv N X v p i
             end
    end.

  Lemma ap_ext : forall N A v w i, (forall j, j < N -> v j = w j) -> ap N A v i = ap N A w i.
  Proof. intros N A v w i H. apply ksum_ext. intros j Hj. apply in_seq in Hj. rewrite H by lia. reflexivity. Qed.
  Lemma ap_lin : forall N A v w c i, ap N A (fun j => c * v j - w j) i = c * ap N A v i - ap N A w i.
  Proof.
    intros N A v w c i. unfold ap.
    assert (E : c * ksum (fun j => A i j * v j) (seq 0 N) - ksum (fun j => A i j * w j) (seq 0 N)
                = c * ksum (fun j => A i j * v j) (seq 0 N) + kopp k1 * ksum (fun j => A i j * w j) (seq 0 N)) by ring.
    rewrite E, <- !ksum_mul_l, <- ksum_add. apply ksum_ext. intros; ring.
  Qed.
  Lemma inner_ext : forall N u v u' v', (forall i, i < N -> u i = u' i) -> (forall i, i < N -> v i = v' i) -> inner N u v = inner N u' v'.
  Proof. intros N u v u' v' H1 H2. apply ksum_ext. intros i Hi. apply in_seq in Hi. rewrite H1, H2 by lia. reflexivity. Qed.
  Lemma inner_conj : forall N u v, kconj (inner N u v) = inner N v u.
  Proof. intros. unfold inner. rewrite ksum_conj. apply ksum_ext. intros. rewrite (kconj_mul R), (kconj_conj R). ring. Qed.
  Lemma inner_lin_r : forall N u v w c, inner N u (fun j => c * v j - w j) = c * inner N u v - inner N u w.
  Proof.
    intros N u v w c. unfold inner.
    assert (E : forall a b0 : R, c * a - b0 = c * a + kopp k1 * b0) by (intros; ring).
    rewrite E, <- !ksum_mul_l, <- ksum_add. apply ksum_ext. intros; ring.
  Qed.
  Lemma conj_two : kconj (k1 + k1) = k1 + k1 :> R.
  Proof. rewrite (kconj_add R), kconj_1. reflexivity. Qed.
  Lemma inner_lin_l : forall N u v w, inner N (fun j => (k1 + k1) * v j - w j) u = (k1 + k1) * inner N v u - inner N w u.
  Proof.
    intros N u v w. rewrite <- (inner_conj N u), inner_lin_r, kconj_sub, (kconj_mul R), conj_two, !inner_conj. reflexivity.
  Qed.

  (** Hermitian matrices move across the inner product. *)
  Lemma ap_self : forall N X u v, hermitian N X -> inner N (ap N X u) v = inner N u (ap N X v).
  Proof.
    intros N X u v H. unfold inner, ap.
    transitivity (ksum (fun i => ksum (fun j => kconj (X i j) * kconj (u j) * v i) (seq 0 N)) (seq 0 N)).
    { apply ksum_ext. intros i _. rewrite ksum_conj, <- ksum_mul_r. apply ksum_ext. intros. rewrite (kconj_mul R). reflexivity. }
    rewrite ksum_swap. apply ksum_ext. intros j Hj. apply in_seq in Hj. rewrite <- ksum_mul_l. apply ksum_ext.
    intros i Hi. apply in_seq in Hi. rewrite H by lia. ring.
  Qed.

  (** The product formula: 2 <t_n, t_m> = <v, t_{n+m}> + <v, t_{m-n}>. *)
  Section Product.
    Variable N : nat.
    Variable X : dmat R.
    Hypothesis HX : hermitian N X.
    Variable v : nat -> R.
    Local Notation t := (cv N X v).
    Local Notation sp n m := (inner N (t n) (t m)).

    Lemma cv_SS : forall n i, t (S (S n)) i = (k1 + k1) * ap N X (t (S n)) i - t n i.
    Proof. reflexivity. Qed.

    Lemma sp_right : forall u n, (k1 + k1) * inner N u (ap N X (t (S n))) = inner N u (t (S (S n))) + inner N u (t n).
    Proof.
      intros u n. rewrite (inner_ext N u (t (S (S n))) u (fun j => (k1 + k1) * ap N X (t (S n)) j - t n j)) by reflexivity.
      rewrite inner_lin_r. ring.
    Qed.

    Lemma product : forall n m, n <= m -> (k1 + k1) * sp n m = sp 0 (n + m)%nat + sp 0 (m - n)%nat.
    Proof.
      assert (G : forall n, (forall m, n <= m -> (k1 + k1) * sp n m = sp 0 (n + m)%nat + sp 0 (m - n)%nat)
                /\ (forall m, S n <= m -> (k1 + k1) * sp (S n) m = sp 0 (S n + m)%nat + sp 0 (m - S n)%nat)).
      { induction n as [|n (IH0 & IH1)].
        - split; intros m Hm.
          + rewrite Nat.sub_0_r, Nat.add_0_l. ring.
          + change (t 1) with (ap N X (t 0)). rewrite ap_self by auto. destruct m as [|m]; [lia|].
            rewrite sp_right. rewrite Nat.sub_succ, Nat.sub_0_r. reflexivity.
        - split; [exact IH1|]. intros m Hm. destruct m as [|m]; [lia|].
          rewrite (inner_ext N (t (S (S n))) (t (S m)) (fun j => (k1 + k1) * ap N X (t (S n)) j - t n j) (t (S m))) by reflexivity.
          rewrite inner_lin_l, ap_self, sp_right by auto.
          assert (E : forall a b0 c : R, (k1 + k1) * (a + b0 - c) = (k1 + k1) * a + (k1 + k1) * b0 - (k1 + k1) * c) by (intros; ring).
          rewrite E, IH1, IH1, IH0 by lia.
          replace (S n + S (S m))%nat with (S (S n) + S m)%nat by lia. replace (S (S m) - S n)%nat with (S m - n)%nat by lia.
          replace (S n + m)%nat with (n + S m)%nat by lia. replace (m - S n)%nat with (S m - S (S n))%nat by lia. ring. }
      intros n m. apply G.
    Qed.
  End Product.

  (** [T_n] applied to a vector commutes with the matrix, so the expectation values are real. *)
  Lemma cv_ext : forall N X v w n i, i < N -> (forall j, j < N -> v j = w j) -> cv N X v n i = cv N X w n i.
  Proof.
    intros N X v w n i Hi H. revert i Hi.
    assert (G : forall n, (forall i, i < N -> cv N X v n i = cv N X w n i) /\ (forall i, i < N -> cv N X v (S n) i = cv N X w (S n) i)).
    { induction n0 as [|m (IH0 & IH1)].
      - split; [exact H|]. intros i Hi. apply ap_ext. auto.
      - split; [exact IH1|]. intros i Hi. rewrite !cv_SS, IH0, (ap_ext N X _ _ i IH1) by auto. reflexivity. }
    apply G.
  Qed.
  Lemma cv_comm : forall N X v n i, i < N -> cv N X (ap N X v) n i = ap N X (cv N X v n) i.
  Proof.
    intros N X v.
    assert (G : forall n, (forall i, i < N -> cv N X (ap N X v) n i = ap N X (cv N X v n) i)
                /\ (forall i, i < N -> cv N X (ap N X v) (S n) i = ap N X (cv N X v (S n)) i)).
    { induction n as [|n (IH0 & IH1)]; split; auto.
      intros i Hi. rewrite cv_SS, IH0, (ap_ext N X _ _ i IH1) by auto.
      rewrite (ap_ext N X (cv N X v (S (S n))) (fun j => (k1 + k1) * ap N X (cv N X v (S n)) j - cv N X v n j)) by reflexivity.
      rewrite ap_lin. reflexivity. }
    intros n. apply G.
  Qed.
  Lemma cv_self : forall N X, hermitian N X -> forall n u v, inner N (cv N X u n) v = inner N u (cv N X v n).
  Proof.
    intros N X HX.
    assert (G : forall n, (forall u v, inner N (cv N X u n) v = inner N u (cv N X v n))
                /\ (forall u v, inner N (cv N X u (S n)) v = inner N u (cv N X v (S n)))).
    { induction n as [|n (IH0 & IH1)].
      - split; [reflexivity|]. intros u v. apply ap_self; auto.
      - split; [exact IH1|]. intros u v.
        rewrite (inner_ext N (cv N X u (S (S n))) v (fun j => (k1 + k1) * ap N X (cv N X u (S n)) j - cv N X u n j) v) by reflexivity.
        rewrite inner_lin_l, ap_self, IH1, IH0 by auto.
        rewrite (inner_ext N u (cv N X (ap N X v) (S n)) u (ap N X (cv N X v (S n)))) by (auto; intros; apply cv_comm; auto).
        rewrite sp_right. ring. }
    intros n. apply G.
  Qed.

  (** What the doubled-rate collector stores. *)
  Lemma diag_even : forall N X v n, hermitian N X ->
    (k1 + k1) * (inner N (cv N X v n) (cv N X v n) - inner N v v * half) = inner N v (cv N X v (2 * n)).
  Proof.
    intros N X v n HX. pose proof (product N X HX v n n (le_n n)) as P. rewrite Nat.sub_diag in P.
    replace (n + n)%nat with (2 * n)%nat in P by lia. cbn [cv] in P.
    assert (E : forall a c d : R, (k1 + k1) * a = d + c -> (k1 + k1) * (a - c * half) = d).
    { intros a c d Ha. assert (X1 : (k1 + k1) * (a - c * half) = (k1 + k1) * a - c * (half + half)) by ring.
      rewrite X1, Hhalf, Ha. ring. }
    apply E. exact P.
  Qed.
  Lemma diag_odd : forall N X v n, hermitian N X ->
    (k1 + k1) * inner N (cv N X v (S n)) (cv N X v n) - inner N (cv N X v 1) v = inner N v (cv N X v (2 * n + 1)).
  Proof.
    intros N X v n HX. rewrite cv_self by auto.
    assert (P : (k1 + k1) * inner N (cv N X v n) (cv N X v (S n)) = inner N v (cv N X v (n + S n)) + inner N v (cv N X v (S n - n))).
    { apply (product N X HX v n (S n)). lia. }
    replace (n + S n)%nat with (2 * n + 1)%nat in P by lia. replace (S n - n)%nat with 1 in P by lia.
    assert (E : inner N v (cv N X v (2 * n + 1)) = kconj (inner N v (cv N X v (2 * n + 1)))) by (rewrite inner_conj, cv_self; auto).
    assert (E1 : inner N v (cv N X v 1) = inner N (cv N X v 1) v) by (rewrite cv_self; auto).
    apply (f_equal (@kconj R)) in P. rewrite (kconj_mul R), conj_two, (kconj_add R), !inner_conj in P.
    rewrite !(cv_self N X HX) in P. rewrite E1 in P. rewrite <- (cv_self N X HX (S n)) in P.
    rewrite <- (cv_self N X HX (S n)). rewrite P. ring.
  Qed.

  (** ** Vectors as matrix elements *)
  Lemma ap_delta : forall N v i, i < N -> ap N delta v i = v i.
  Proof.
    intros N v i Hi. unfold ap. rewrite (ksum_single R (fun j => delta i j * v j) N i Hi); unfold delta.
    - rewrite Nat.eqb_refl. ring.
    - intros j Hj Hne. destruct (Nat.eqb_spec i j); [congruence|]. ring.
  Qed.
  Lemma ap_dmul : forall N A B v i, ap N (dmul N A B) v i = ap N A (ap N B v) i.
  Proof.
    intros N A B v i. unfold ap, dmul.
    transitivity (ksum (fun j => ksum (fun k => A i k * B k j * v j) (seq 0 N)) (seq 0 N)).
    { apply ksum_ext. intros j _. rewrite <- ksum_mul_r. reflexivity. }
    rewrite ksum_swap. apply ksum_ext. intros k _. rewrite <- ksum_mul_l. apply ksum_ext. intros; ring.
  Qed.
  Lemma cv_cheb : forall N X v n i, i < N -> cv N X v n i = ap N (cheb N X n) v i.
  Proof.
    intros N X v n. 
    assert (G : forall n, (forall i, i < N -> cv N X v n i = ap N (cheb N X n) v i)
              /\ (forall i, i < N -> cv N X v (S n) i = ap N (cheb N X (S n)) v i)).
    { induction n0 as [|m (IH0 & IH1)].
      - split; [|reflexivity]. intros i Hi. cbn [cv cheb]. rewrite ap_delta; auto.
      - split; [exact IH1|]. intros i Hi. rewrite cv_SS, IH0, (ap_ext N X _ _ i IH1) by auto. rewrite <- ap_dmul.
        change (cheb N X (S (S m))) with (fun i j => (k1 + k1) * dmul N X (cheb N X (S m)) i j - cheb N X m i j).
        unfold ap at 3.
        assert (E : forall a b0 : R, (k1 + k1) * a - b0 = (k1 + k1) * a + kopp k1 * b0) by (intros; ring).
        unfold ap. rewrite E, <- !ksum_mul_l, <- ksum_add. apply ksum_ext. intros; ring. }
    apply G.
  Qed.
  Lemma inner_braket : forall N u A v, inner N u (ap N A v) = braket N u A v.
  Proof. intros. unfold inner, ap, braket. apply ksum_ext. intros i _. rewrite <- ksum_mul_l. apply ksum_ext. intros; ring. Qed.
  Lemma inner_cheb : forall N X u v n, inner N u (cv N X v n) = braket N u (cheb N X n) v.
  Proof. intros. rewrite <- inner_braket. apply inner_ext; auto. intros. apply cv_cheb; auto. Qed.

  (** ** Renumbered matrices *)
  Lemma renumbering_perm : forall N pi, renumbering N pi -> Permutation (map pi (seq 0 N)) (seq 0 N).
  Proof.
    intros N pi (Hlt & Hinj). apply NoDup_Permutation_bis.
    - assert (G : forall l, NoDup l -> (forall x, In x l -> x < N) -> NoDup (map pi l)).
      { induction l as [|x l IH]; intros Hn Hx; [constructor|]. inversion Hn; subst. cbn. constructor.
        - intros Hin. apply in_map_iff in Hin. destruct Hin as (y & Ey & Hy).
          apply Hinj in Ey; [subst; auto| |]; apply Hx; [right|left]; auto.
        - apply IH; auto. intros; apply Hx; right; auto. }
      apply G; [apply seq_NoDup|]. intros x Hx. apply in_seq in Hx. lia.
    - rewrite map_length. auto.
    - intros x Hx. apply in_map_iff in Hx. destruct Hx as (y & <- & Hy). apply in_seq in Hy. apply in_seq. specialize (Hlt y). lia.
  Qed.
  Lemma ksum_renumber : forall N pi (f : nat -> R), renumbering N pi -> ksum f (seq 0 N) = ksum (fun i => f (pi i)) (seq 0 N).
  Proof. intros N pi f H. rewrite <- (ksum_perm R f _ _ (renumbering_perm N pi H)), ksum_map. reflexivity. Qed.
  Lemma inner_renumber : forall N pi u v u' v', renumbering N pi ->
    (forall i, i < N -> u (pi i) = u' i) -> (forall i, i < N -> v (pi i) = v' i) -> inner N u v = inner N u' v'.
  Proof.
    intros N pi u v u' v' H Hu Hv. unfold inner. rewrite (ksum_renumber N pi _ H). apply ksum_ext. intros i Hi. apply in_seq in Hi.
    rewrite Hu, Hv by lia. reflexivity.
  Qed.
  Lemma renumbering_onto : forall N pi k, renumbering N pi -> k < N -> exists i, i < N /\ pi i = k.
  Proof.
    intros N pi k H Hk. assert (Hin : In k (map pi (seq 0 N))).
    { eapply Permutation_in; [symmetry; apply renumbering_perm; auto|]. apply in_seq. lia. }
    apply in_map_iff in Hin. destruct Hin as (i & E & Hi). apply in_seq in Hi. exists i. split; [lia|auto].
  Qed.

  Lemma act_ap : forall (m : csr) N x i, (forall e, In e (entries m i) -> fst e < N) -> act R m x i = ap N (coef m) x i.
  Proof.
    intros m N x i H. unfold act, ap, coef.
    transitivity (ksum (fun j => ksum (fun e => (if fst e =? j then snd e else k0) * x j) (entries m i)) (seq 0 N)).
    2:{ apply ksum_ext. intros j _. rewrite ksum_mul_r. reflexivity. }
    rewrite ksum_swap. apply ksum_ext. intros e He. specialize (H e He).
    rewrite (ksum_single R (fun j => (if fst e =? j then snd e else k0) * x j) N (fst e) H).
    - rewrite Nat.eqb_refl. reflexivity.
    - intros j _ Hne. destruct (Nat.eqb_spec (fst e) j); [congruence|]. ring.
  Qed.

  Section Represented.
    Variable inv_a b : R.
    Variable N : nat.
    Variable h : csr.
    Variable idx : indices.
    Variable oh : optimized R.
    Variable pi : nat -> nat.
    Hypothesis Hrep : represents R inv_a b N h idx oh pi.
    Local Notation m := (oh_matrix oh).
    Local Notation X := (scaled_dense inv_a b (coef h)).

    Lemma act_scaled : forall x w i, i < N -> (forall j, j < N -> x (pi j) = w j) -> act R m x (pi i) = (k1 + k1) * ap N X w i.
    Proof.
      intros x w i Hi Hx. rewrite (act_ap m N) by (apply (rp_wf _ _ _ _ _ _ _ _ Hrep)). unfold ap.
      rewrite (ksum_renumber N pi _ (rp_pi _ _ _ _ _ _ _ _ Hrep)). rewrite <- ksum_mul_l. apply ksum_ext.
      intros j Hj. apply in_seq in Hj. rewrite (rp_coef _ _ _ _ _ _ _ _ Hrep), Hx by lia. ring.
    Qed.
    Lemma half_two : forall x : R, (k1 + k1) * x * half = x.
    Proof. intros x. assert (E : (k1 + k1) * x * half = x * (half + half)) by ring. rewrite E, Hhalf. ring. Qed.

    Lemma tseq_cv : forall t0 t1 v, (forall i, i < N -> t0 (pi i) = v i) -> (forall i, i < N -> t1 i = act R m t0 i * half) ->
      forall n i, i < N -> tseq R m t0 t1 n (pi i) = cv N X v n i.
    Proof.
      intros t0 t1 v H0 H1.
      assert (G : forall n, (forall i, i < N -> tseq R m t0 t1 n (pi i) = cv N X v n i)
               /\ (forall i, i < N -> tseq R m t0 t1 (S n) (pi i) = cv N X v (S n) i)).
      { induction n as [|n (IH0 & IH1)].
        - split; [exact H0|]. intros i Hi. cbn [tseq cv]. rewrite H1 by (apply (rp_pi _ _ _ _ _ _ _ _ Hrep); auto).
          rewrite (act_scaled t0 v) by auto. apply half_two.
        - split; [exact IH1|]. intros i Hi. rewrite tseq_SS, cv_SS, IH0, (act_scaled _ (cv N X v (S n))) by auto. reflexivity. }
      intros n. apply G.
    Qed.
  End Represented.
End Cheb.
