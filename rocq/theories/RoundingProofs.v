(* Rounding errors of the Chebyshev recursion (C109). *)
From Verif Require Import Base Scalar Kpm KpmSpec KpmVec KpmCheb KpmGram RSum Cplx Spectral SpectralProofs NormProofs Rounding.
From Coq Require Import Reals Lra Ring.
Local Open Scope R_scope.
Local Notation dm := (nat -> nat -> CX).
Add Ring CXringRp : (k_ring CX).

Lemma nrm_ksum : forall N (f : nat -> nat -> CX) n, nrm N (fun i => ksum (fun k => f k i) (seq 0 n)) <= rsum (fun k => nrm N (f k)) n.
Proof.
  intros N f n. induction n as [|n IH]; [rewrite nrm_zero by reflexivity; cbn; lra|]. cbn [rsum].
  rewrite (nrm_ext N _ (fun i => kadd (ksum (fun k => f k i) (seq 0 n)) (f n i))).
  - eapply Rle_trans; [apply nrm_add|]. lra.
  - intros i _. rewrite seq_S, ksum_app, ksum_cons, ksum_nil. cbn [Nat.add]. ring.
Qed.

(** ** A recursion with an error in every step *)
Section Recursion.
  Variables (N : nat) (X : dm).
  Hypothesis HX : hermitian N X.
  Hypothesis HW : within N X (-1) 1.
  Notation A := (ap CX N X).
  Variable r : nat -> nat -> CX.
  (** the error of step [k] *)
  Definition step_error (k : nat) : nat -> CX :=
    match k with
    | O => fun i => ksub (r 1 i) (A (r 0%nat) i)
    | S n => fun i => ksub (r (S (S n)) i) (ksub (kmul (kadd k1 k1) (A (r (S n)) i)) (r n i))
    end.
  Notation d := step_error.
  Definition drift (n : nat) : nat -> CX := fun i => ksum (fun k => uv CX N X (d k) (n - k) i) (seq 0 n).

  Lemma ap_ksum : forall (f : nat -> nat -> CX) n i, A (fun j => ksum (fun k => f k j) (seq 0 n)) i = ksum (fun k => A (f k) i) (seq 0 n).
  Proof.
    intros f n i. unfold ap. rewrite ksum_swap. apply ksum_ext. intros j _. rewrite ksum_mul_l. reflexivity.
  Qed.
  Lemma uv_1 : forall v i, uv CX N X v 1 i = v i.
  Proof. intros v i. rewrite uv_S. unfold vadd. change (tv CX N X v 0 i) with (v i). change (uv CX N X v 0) with (fun _ : nat => @k0 CX). rewrite ap_0. ring. Qed.
  Lemma seq_last : forall (f : nat -> CX) n, ksum f (seq 0 (S n)) = kadd (ksum f (seq 0 n)) (f n).
  Proof. intros f n. rewrite seq_S, ksum_app, ksum_cons, ksum_nil. cbn [Nat.add]. ring. Qed.
  Lemma drift_SS : forall n i, drift (S (S n)) i = kadd (ksub (kmul (kadd k1 k1) (A (drift (S n)) i)) (drift n i)) (d (S n) i).
  Proof.
    intros n i. unfold drift. rewrite ap_ksum. rewrite (seq_last _ (S n)), !(seq_last _ n).
    replace (S (S n) - S n)%nat with 1%nat by lia. replace (S (S n) - n)%nat with 2%nat by lia. replace (S n - n)%nat with 1%nat by lia. rewrite uv_1.
    rewrite (uv_SS N X (d n) 0). change (uv CX N X (d n) 0 i) with (@k0 CX).
    assert (E : ksum (fun k => uv CX N X (d k) (S (S n) - k) i) (seq 0 n) = ksub (kmul (kadd k1 k1) (ksum (fun k => A (uv CX N X (d k) (S n - k)) i) (seq 0 n))) (ksum (fun k => uv CX N X (d k) (n - k) i) (seq 0 n))).
    { rewrite <- ksum_mul_l, <- ksum_sub. apply ksum_ext. intros k Hk. apply in_seq in Hk. replace (S (S n) - k)%nat with (S (S (n - k))) by lia. replace (S n - k)%nat with (S (n - k)) by lia. apply uv_SS. }
    rewrite E. change (ksum (fun k => A (fun j => uv CX N X (d k) (S n - k) j) i) (seq 0 n)) with (ksum (fun k => A (uv CX N X (d k) (S n - k)) i) (seq 0 n)). change (A (fun j => uv CX N X (d n) 1 j) i) with (A (uv CX N X (d n) 1) i). ring.
  Qed.
  Lemma r_split : forall n i, r n i = kadd (cv CX N X (r 0%nat) n i) (drift n i).
  Proof.
    assert (G : forall n, (forall i, r n i = kadd (cv CX N X (r 0%nat) n i) (drift n i)) /\ (forall i, r (S n) i = kadd (cv CX N X (r 0%nat) (S n) i) (drift (S n) i))).
    { induction n as [|n [IH1 IH2]].
      - split; intros i.
        + unfold drift. cbn [seq]. rewrite ksum_nil. cbn [cv]. ring.
        + unfold drift. rewrite seq_last. cbn [seq]. rewrite ksum_nil. change (1 - 0)%nat with 1%nat. rewrite uv_1. cbn [cv step_error]. ring.
      - split; [exact IH2|]. intros i. rewrite drift_SS, cv_SS.
        assert (E : A (r (S n)) i = kadd (A (cv CX N X (r 0%nat) (S n)) i) (A (drift (S n)) i)).
        { transitivity (A (vadd CX (cv CX N X (r 0%nat) (S n)) (drift (S n))) i); [apply ap_ext; intros j _; apply IH2|apply ap_add]. }
        assert (D : d (S n) i = ksub (r (S (S n)) i) (ksub (kmul (kadd k1 k1) (A (r (S n)) i)) (r n i))) by reflexivity.
        rewrite D, E, (IH1 i). ring. }
    intros n. apply G.
  Qed.
  Definition deviation (n : nat) : R := nrm N (fun i => ksub (r n i) (cv CX N X (r 0%nat) n i)).
  Lemma deviation_sum : forall n, deviation n <= rsum (fun k => INR (n - k) * nrm N (d k)) n.
  Proof.
    intros n. unfold deviation. rewrite (nrm_ext N _ (drift n)) by (intros i _; rewrite r_split; ring).
    unfold drift. eapply Rle_trans; [apply nrm_ksum|]. apply rsum_le. intros k _. apply uv_nrm; assumption.
  Qed.
  Lemma rsum_triangle : forall n, rsum (fun k => INR (n - k)) n = INR n * INR (S n) / 2.
  Proof.
    intros n. induction n as [|n IH]; [cbn; lra|]. rewrite rsum_S_l. rewrite (rsum_ext _ (fun k => INR (n - k))) by (intros k _; f_equal).
    rewrite IH. rewrite Nat.sub_0_r, !S_INR. lra.
  Qed.
  Lemma deviation_bound : forall n eps, (forall k, (k < n)%nat -> nrm N (d k) <= eps) -> deviation n <= eps * (INR n * INR (S n) / 2).
  Proof.
    intros n eps H. eapply Rle_trans; [apply deviation_sum|]. rewrite <- rsum_triangle, <- rsum_scal. apply rsum_le. intros k Hk. pose proof (H k Hk). pose proof (pos_INR (n - k)). nra.
  Qed.
  Lemma r_nrm : forall n, nrm N (r n) <= nrm N (r 0%nat) + deviation n.
  Proof. intros n. pose proof (cheb_nrm N X HX HW (r 0%nat) n). pose proof (nrm_diff N (r n) (cv CX N X (r 0%nat) n)). unfold deviation. lra. Qed.

  (** errors relative to the vectors of the step *)
  Lemma deviation_rounding : forall c L, 0 <= c -> c * (INR L * INR (S L)) <= 1 ->
    (forall k b, (k < L)%nat -> (forall j, (j <= k)%nat -> nrm N (r j) <= b) -> nrm N (d k) <= c * b) ->
    forall n, (n <= L)%nat -> deviation n <= c * (INR n * INR (S n)) * nrm N (r 0%nat).
  Proof.
    intros c L Hc HL Hd n. induction n as [n IH] using lt_wf_ind. intros Hn. pose proof (nrm_pos N (r 0%nat)) as P.
    assert (B : forall j, (j < n)%nat -> nrm N (r j) <= 2 * nrm N (r 0%nat)).
    { intros j Hj. pose proof (IH j Hj ltac:(lia)) as D. pose proof (r_nrm j) as Q. assert (M : INR j * INR (S j) <= INR L * INR (S L)).
      { apply Rmult_le_compat; try apply pos_INR; apply le_INR; lia. }
      assert (c * (INR j * INR (S j)) <= 1) by nra. nra. }
    eapply Rle_trans; [apply (deviation_bound n (c * (2 * nrm N (r 0%nat))))|].
    - intros k Hk. apply Hd; [lia|]. intros j Hj. apply B. lia.
    - lra.
  Qed.
End Recursion.

(** ** Rounded arithmetic: every operation has a relative error of at most [u] *)
Definition asum (l : list CX) : R := fold_right (fun z s => cabs z + s) 0 l.
Record accurate (u : R) (F : arith) : Prop := {
  acc_pos : 0 <= u;
  acc_add : forall z w, cabs (ksub (f_add F z w) (kadd z w)) <= u * cabs (kadd z w);
  acc_sub : forall z w, cabs (ksub (f_sub F z w) (ksub z w)) <= u * cabs (ksub z w);
  acc_mul : forall z w, cabs (ksub (f_mul F z w) (kmul z w)) <= u * cabs (kmul z w);
  acc_sum : forall l, cabs (ksub (f_sum F l) (ksum (fun z => z) l)) <= ((1 + u) ^ length l - 1) * asum l
}.
Lemma asum_pos : forall l, 0 <= asum l.
Proof. intros l. induction l as [|z l IH]; [cbn; lra|]. cbn [asum fold_right]. fold (asum l). pose proof (cabs_pos z). lra. Qed.
Lemma asum_ksum : forall l, cabs (ksum (fun z => z) l) <= asum l.
Proof. intros l. induction l as [|z l IH]; [change (cabs k0 <= 0); rewrite cabs_0; lra|]. rewrite ksum_cons. cbn [asum fold_right]. eapply Rle_trans; [apply cabs_add|]. fold (asum l). lra. Qed.
Lemma pow_ge1 : forall u p, 0 <= u -> 1 <= (1 + u) ^ p.
Proof. intros u p H. apply pow_R1_Rle. lra. Qed.
Lemma pow_up : forall u p q, 0 <= u -> (p <= q)%nat -> (1 + u) ^ p <= (1 + u) ^ q.
Proof. intros u p q H L. apply Rle_pow; [lra|exact L]. Qed.
(** one rounded operation on top of rounded arguments *)
Lemma err_compose : forall u p z zh w B, 0 <= u -> cabs (ksub zh w) <= u * cabs w -> cabs (ksub w z) <= ((1 + u) ^ p - 1) * B -> cabs z <= B ->
  cabs (ksub zh z) <= ((1 + u) ^ S p - 1) * B.
Proof.
  intros u p z zh w B Hu H1 H2 H3. pose proof (pow_ge1 u p Hu) as P. pose proof (cabs_diff w z) as D. pose proof (cabs_pos z) as Z.
  replace (ksub zh z) with (kadd (ksub zh w) (ksub w z)) by ring. eapply Rle_trans; [apply cabs_add|]. cbn [pow].
  assert (W : cabs w <= (1 + u) ^ p * B) by nra. assert (u * cabs w <= u * ((1 + u) ^ p * B)) by (apply Rmult_le_compat_l; assumption). nra.
Qed.

Section Kernel.
  Variables (u : R) (F : arith).
  Hypothesis HF : accurate u F.
  Local Notation csr := (list (list (nat * CX))).

  (** A row, added up from [a]. *)
  Definition row_from (a : CX) (row : list (nat * CX)) (x : nat -> CX) : CX := fold_left (fun r e => f_add F r (f_mul F (snd e) (x (fst e)))) row a.
  Definition row_value (row : list (nat * CX)) (x : nat -> CX) : CX := row_from k0 row x.
  Lemma fl_row_ok : forall row x, (forall e, In e row -> (fst e < length x)%nat) -> fl_row F row x = Ok (row_value row (vec x)).
  Proof.
    intros row x H. unfold fl_row, row_value, row_from. generalize (@k0 CX). induction row as [|e row IH]; intros a; [reflexivity|].
    cbn [ofold fold_left]. rewrite (aget_vec CX) by (apply H; left; reflexivity). cbn [obind]. apply IH. intros; apply H; right; assumption.
  Qed.
  Definition products (row : list (nat * CX)) (x : nat -> CX) : list CX := map (fun e => kmul (snd e) (x (fst e))) row.
  (** Terms with a relative error, added up one after the other. *)
  Lemma terms_error : forall (A : Type) (th t : A -> CX) q, (1 <= q)%nat -> forall l a a0 B p, (forall e, In e l -> cabs (ksub (th e) (t e)) <= ((1 + u) ^ q - 1) * cabs (t e)) ->
    (q <= p)%nat -> cabs a0 <= B -> cabs (ksub a a0) <= ((1 + u) ^ p - 1) * B ->
    cabs (ksub (fold_left (fun r e => f_add F r (th e)) l a) (kadd a0 (ksum t l))) <= ((1 + u) ^ (p + length l) - 1) * (B + asum (map t l)).
  Proof.
    intros A th t q Hq. pose proof (acc_pos _ _ HF) as Hu. induction l as [|e row IH]; intros a a0 B p Ht Hqp HB Ha.
    - cbn [fold_left length map asum fold_right]. rewrite ksum_nil, Nat.add_0_r. replace (kadd a0 k0) with a0 by ring. replace (B + 0) with B by lra. exact Ha.
    - cbn [fold_left length map asum fold_right]. rewrite ksum_cons. pose proof (Ht e (or_introl eq_refl)) as T.
      replace (kadd a0 (kadd (t e) (ksum t row))) with (kadd (kadd a0 (t e)) (ksum t row)) by ring.
      replace (p + S (length row))%nat with (S p + length row)%nat by lia. fold (asum (map t row)).
      replace (B + (cabs (t e) + asum (map t row))) with (B + cabs (t e) + asum (map t row)) by ring. apply IH.
      + intros e' He'. apply Ht. right. exact He'.
      + lia.
      + eapply Rle_trans; [apply cabs_add|]. lra.
      + apply (err_compose u p _ _ (kadd a (th e)) (B + cabs (t e)) Hu); [apply (acc_add _ _ HF)| |eapply Rle_trans; [apply cabs_add|]; lra].
        replace (ksub (kadd a (th e)) (kadd a0 (t e))) with (kadd (ksub a a0) (ksub (th e) (t e))) by ring. eapply Rle_trans; [apply cabs_add|].
        pose proof (pow_up u q p Hu Hqp) as P. pose proof (cabs_pos (t e)). nra.
  Qed.
  Lemma row_from_error : forall row a x, cabs (ksub (row_from a row x) (kadd a (ksum (fun e => kmul (snd e) (x (fst e))) row))) <= ((1 + u) ^ S (length row) - 1) * (cabs a + asum (products row x)).
  Proof.
    intros row a x. pose proof (acc_pos _ _ HF) as Hu. unfold row_from.
    apply (terms_error (nat * CX) (fun e => f_mul F (snd e) (x (fst e))) (fun e => kmul (snd e) (x (fst e))) 1 (le_n 1) row a a (cabs a) 1).
    - intros e _. rewrite pow_1. replace (1 + u - 1) with u by ring. apply (acc_mul _ _ HF).
    - lia.
    - lra.
    - replace (ksub a a) with (@k0 CX) by ring. rewrite cabs_0, pow_1. pose proof (cabs_pos a). nra.
  Qed.
  Lemma row_error : forall row x, cabs (ksub (row_value row x) (ksum (fun e => kmul (snd e) (x (fst e))) row)) <= ((1 + u) ^ S (length row) - 1) * asum (products row x).
  Proof.
    intros row x. pose proof (row_from_error row k0 x) as K. rewrite cabs_0, Rplus_0_l in K. unfold row_value.
    replace (ksum (fun e => kmul (snd e) (x (fst e))) row) with (kadd k0 (ksum (fun e => kmul (snd e) (x (fst e))) row)) by ring. exact K.
  Qed.
  Lemma row_bound' : forall row x, cabs (ksum (fun e => kmul (snd e) (x (fst e))) row) <= asum (products row x).
  Proof. intros row x. unfold products. eapply Rle_trans; [|apply asum_ksum]. rewrite ksum_map. lra. Qed.
  Lemma exact_zero : forall w, cabs w <= 0 -> w = k0.
  Proof. intros [a b] H. unfold cabs, abs2 in H. cbn in H. assert (E : sqrt (a * a + b * b) = 0) by (pose proof (sqrt_pos (a * a + b * b)); lra).
    pose proof (Rle_0_sqr a) as A. pose proof (Rle_0_sqr b) as B. unfold Rsqr in *. apply sqrt_eq_0 in E; [|lra]. assert (a * a = 0) by lra. assert (b * b = 0) by lra.
    assert (a = 0) by nra. assert (b = 0) by nra. subst. reflexivity. Qed.
  Lemma mul_zero : forall w, f_mul F k0 w = k0.
  Proof.
    intros w. pose proof (acc_mul _ _ HF k0 w) as H. replace (kmul k0 w) with (@k0 CX) in H by ring. rewrite cabs_0, Rmult_0_r in H.
    replace (ksub (f_mul F k0 w) k0) with (f_mul F k0 w) in H by ring. apply exact_zero. exact H.
  Qed.
End Kernel.

(** ** Sequences of vectors: every step is computed row by row *)
Section Steps.
  Variables (cell : nat -> (nat -> CX) -> CX -> CX) (start : nat -> (nat -> CX) -> CX).
  Variable x0 : nat -> CX.
  Fixpoint steps (n : nat) : nat -> CX :=
    match n with
    | O => x0
    | S k => match k with O => fun i => start i x0 | S j => fun i => cell i (steps k) (steps j i) end
    end.
  Lemma steps_SS : forall n, steps (S (S n)) = fun i => cell i (steps (S n)) (steps n i). Proof. reflexivity. Qed.

  Variable m : list (list (nat * CX)).
  Variable N : nat.
  Hypothesis Hm : wf_csr N m.
  Lemma Hrange : forall i e, In e (entries m i) -> (fst e < N)%nat. Proof. apply Hm. Qed.
  Variable S0 : R.
  Definition magnitude (i j : nat) : R := cabs (coef m i j).
  Hypothesis HS : forall i, (i < N)%nat -> rsum (magnitude i) N <= S0.
  Definition half_of : dm := fun i j => kmul cx_half (coef m i j).
  Hypothesis HX : hermitian N half_of.
  Hypothesis HB : within N half_of (-1) 1.
  (** Errors of one row, relative to the absolute values it adds up. *)
  Variable g : R.
  Definition cell_close : Prop := forall i x y, (i < N)%nat -> cabs (ksub (cell i x y) (ksub (act CX m x i) y)) <= g * (asum (products (entries m i) x) + cabs y).
  Definition start_close : Prop := forall i x, (i < N)%nat -> cabs (ksub (start i x) (kmul cx_half (act CX m x i))) <= g * asum (products (entries m i) x).
  Hypothesis Hg : 0 <= g.
  Hypothesis Hcell : cell_close.
  Hypothesis Hstart : start_close.
  Lemma coef_conj : forall i j, (i < N)%nat -> (j < N)%nat -> magnitude i j = magnitude j i.
  Proof.
    intros i j Hi Hj. unfold magnitude. pose proof (f_equal cabs (HX i j Hi Hj)) as E. rewrite cabs_conj in E. unfold half_of in E. rewrite !cabs_mul in E.
    assert (0 < cabs cx_half) by (unfold cx_half; rewrite cabs_re, Rabs_pos_eq; lra). apply Rmult_eq_reg_l with (cabs cx_half); lra.
  Qed.
  Lemma S0_pos : (0 < N)%nat -> 0 <= S0.
  Proof. intros H. eapply Rle_trans; [|apply (HS 0%nat H)]. apply rsum_nonneg. intros. apply cabs_pos. Qed.
  (** the products of a row, in terms of the elements *)
  Lemma products_dense : forall x i, asum (products (entries m i) x) = rsum (fun j => magnitude i j * cabs (x j)) N.
  Proof.
    intros x i. unfold magnitude, coef. destruct Hm as (_ & Hc & Hd). specialize (Hc i). specialize (Hd i). induction (entries m i) as [|e row IH].
    - cbn. symmetry. apply rsum_0. intros j _. change (cabs k0 * cabs (x j) = 0). rewrite cabs_0. ring.
    - cbn [products map asum fold_right]. fold (products row x). fold (asum (products row x)). cbn [map] in Hd. apply NoDup_cons_iff in Hd. destruct Hd as [Hn Hd']. rewrite IH by (intros; try apply Hc; try right; assumption).
      assert (He : (fst e < N)%nat) by (apply Hc; left; reflexivity).
      rewrite (rsum_ext (fun j => cabs (ksum (fun e0 => if (fst e0 =? j)%nat then snd e0 else k0) (e :: row)) * cabs (x j))
        (fun j => (if (fst e =? j)%nat then cabs (snd e) * cabs (x j) else 0) + cabs (ksum (fun e0 => if (fst e0 =? j)%nat then snd e0 else k0) row) * cabs (x j))).
      + rewrite rsum_add. f_equal. rewrite cabs_mul. clear - He. generalize N He. intros M. induction M as [|M IHM]; [lia|]. intros H. cbn [rsum].
        destruct (Nat.eq_dec (fst e) M) as [E|E].
        * rewrite <- E, Nat.eqb_refl. rewrite rsum_0; [lra|]. intros j Hj. destruct (Nat.eqb_spec (fst e) j); [lia|reflexivity].
        * rewrite <- IHM by lia. destruct (Nat.eqb_spec (fst e) M); [contradiction|]. lra.
      + intros j _. rewrite ksum_cons. destruct (Nat.eqb_spec (fst e) j) as [<-|Hne].
        * assert (Z : ksum (fun e0 => if (fst e0 =? fst e)%nat then snd e0 else k0) row = @k0 CX).
          { apply ksum_0. intros e' He'. destruct (Nat.eqb_spec (fst e') (fst e)) as [E|]; [|reflexivity]. exfalso. apply Hn. rewrite <- E. apply in_map. exact He'. }
          rewrite Z, cabs_0. replace (kadd (snd e) k0) with (snd e) by ring. lra.
        * replace (kadd k0 (ksum (fun e0 => if (fst e0 =? j)%nat then snd e0 else k0) row)) with (ksum (fun e0 => if (fst e0 =? j)%nat then snd e0 else k0) row) by ring. lra.
  Qed.
  Lemma act_half : forall x i, ap CX N half_of x i = kmul cx_half (act CX m x i).
  Proof.
    intros x i. rewrite (act_ap CX m N) by apply Hrange. unfold ap, half_of. rewrite <- ksum_mul_l. apply ksum_ext. intros j _. ring.
  Qed.
  Lemma two_half : forall z : CX, kmul (kadd k1 k1) (kmul cx_half z) = z.
  Proof. intros z. transitivity (kmul (kadd cx_half cx_half) z); [ring|]. rewrite cx_half_ok. ring. Qed.
  Lemma step_0 : forall i, (i < N)%nat -> cabs (step_error N half_of steps 0 i) <= cabs (rv (fun i => g * rsum (fun j => magnitude i j * cabs (x0 j)) N) i).
  Proof.
    intros i Hi. cbn [step_error]. rewrite act_half. change (steps 1 i) with (start i x0). change (steps 0) with x0.
    unfold rv. rewrite <- (products_dense x0 i). rewrite cabs_re, Rabs_pos_eq by (apply Rmult_le_pos; [exact Hg|apply asum_pos]). apply Hstart. exact Hi.
  Qed.
  Lemma step_S : forall n i, (i < N)%nat ->
    cabs (step_error N half_of steps (S n) i) <= cabs (kadd (rv (fun i => g * rsum (fun j => magnitude i j * cabs (steps (S n) j)) N) i) (rv (fun i => g * cabs (steps n i)) i)).
  Proof.
    intros n i Hi. cbn [step_error]. rewrite act_half, two_half. rewrite steps_SS.
    unfold rv. rewrite <- (products_dense (steps (S n)) i). set (B := asum (products (entries m i) (steps (S n)))). assert (B0 : 0 <= B) by apply asum_pos. set (y := steps n i).
    pose proof (cabs_pos y) as Y0.
    match goal with |- _ <= cabs ?t => replace t with (re (g * (B + cabs y))) by (unfold re; cbn [kadd CX]; unfold cx_add; cbn [fst snd]; f_equal; unfold y; ring) end.
    rewrite cabs_re, Rabs_pos_eq by (apply Rmult_le_pos; [exact Hg|lra]). apply Hcell. exact Hi.
  Qed.
  Lemma rv_scal : forall c f, 0 <= c -> nrm N (rv (fun i => c * f i)) = c * nrm N (rv f).
  Proof.
    intros c f Hc. rewrite (nrm_ext N _ (fun i => kmul (re c) (rv f i))) by (intros i _; unfold rv; rewrite re_mul; reflexivity). rewrite nrm_scal, cabs_re, Rabs_pos_eq by exact Hc. reflexivity.
  Qed.
  Lemma magnitudes : forall x, (0 < N)%nat -> nrm N (rv (fun i => rsum (fun j => magnitude i j * cabs (x j)) N)) <= S0 * nrm N x.
  Proof.
    intros x HN. rewrite <- (nrm_abs N x). apply schur.
    - apply S0_pos. exact HN.
    - intros. apply cabs_pos.
    - intros. apply cabs_pos.
    - exact HS.
    - intros j Hj. rewrite (rsum_ext _ (magnitude j)) by (intros i Hi; apply coef_conj; assumption). apply HS. exact Hj.
  Qed.
  Definition rate : R := g * (1 + S0).
  Lemma step_bound : (0 < N)%nat -> forall k b, (forall j, (j <= k)%nat -> nrm N (steps j) <= b) -> nrm N (step_error N half_of steps k) <= rate * b.
  Proof.
    intros HN [|n] b Hb; pose proof Hg as G; pose proof (S0_pos HN) as S1; unfold rate.
    - eapply Rle_trans; [apply nrm_mono; exact step_0|]. rewrite rv_scal by exact G. pose proof (magnitudes x0 HN) as M. pose proof (Hb 0%nat (le_n 0)) as B. cbn [steps] in B. pose proof (nrm_pos N x0).
      apply Rle_trans with (g * (S0 * nrm N x0)); [apply Rmult_le_compat_l; assumption|]. rewrite Rmult_assoc. apply Rmult_le_compat_l; [exact G|]. nra.
    - eapply Rle_trans; [apply nrm_mono; exact (step_S n)|]. eapply Rle_trans; [apply nrm_add|]. rewrite !rv_scal by exact G. rewrite nrm_abs.
      pose proof (magnitudes (steps (S n)) HN) as M. pose proof (Hb (S n) (le_n _)) as B1. pose proof (Hb n ltac:(lia)) as B2. cbn beta in *.
      apply Rle_trans with (g * (S0 * b) + g * b); [|lra]. apply Rplus_le_compat; apply Rmult_le_compat_l; try exact G; [|exact B2]. eapply Rle_trans; [exact M|]. apply Rmult_le_compat_l; assumption.
  Qed.
  Theorem vectors_close : (0 < N)%nat -> forall L, rate * (INR L * INR (S L)) <= 1 -> forall n, (n <= L)%nat ->
    nrm N (fun i => ksub (steps n i) (cv CX N half_of x0 n i)) <= rate * (INR n * INR (S n)) * nrm N x0.
  Proof.
    intros HN L HL n Hn. apply (deviation_rounding N half_of HX HB steps rate L); auto.
    - unfold rate. apply Rmult_le_pos; [exact Hg|]. pose proof (S0_pos HN). lra.
    - intros k b _ Hb. apply (step_bound HN k b Hb).
  Qed.
End Steps.

(** ** The compressed row kernel *)
Section Csr.
  Variables (u : R) (F : arith).
  Hypothesis HF : accurate u F.
  Variables (m : list (list (nat * CX))) (N : nat).
  Hypothesis Hm : wf_csr N m.
  Variable W : nat.
  Hypothesis HW : forall i, (length (entries m i) <= W)%nat.
  Definition csr_cell (i : nat) (x : nat -> CX) (y : CX) : CX := f_sub F (row_value F (entries m i) x) y.
  Definition csr_start (i : nat) (x : nat -> CX) : CX := f_mul F (row_value F (entries m i) x) cx_half.
  Definition row_rate : R := (1 + u) ^ (W + 2) - 1.
  Lemma row_rate_pos : 0 <= row_rate. Proof. unfold row_rate. pose proof (pow_ge1 u (W + 2) (acc_pos _ _ HF)). lra. Qed.
  Lemma row_err_W : forall x i B, asum (products (entries m i) x) <= B ->
    cabs (ksub (row_value F (entries m i) x) (act CX m x i)) <= ((1 + u) ^ (W + 1) - 1) * B.
  Proof.
    intros x i B HB'. pose proof (acc_pos _ _ HF) as Hu. eapply Rle_trans; [apply (row_error u F HF)|]. pose proof (asum_pos (products (entries m i) x)).
    assert ((1 + u) ^ S (length (entries m i)) <= (1 + u) ^ (W + 1)) by (apply pow_up; [exact Hu|pose proof (HW i); lia]). pose proof (pow_ge1 u (S (length (entries m i))) Hu). nra.
  Qed.
  Lemma csr_cell_close : cell_close csr_cell m N row_rate.
  Proof.
    intros i x y _. pose proof (acc_pos _ _ HF) as Hu. unfold csr_cell, row_rate. replace (W + 2)%nat with (S (W + 1)) by lia. set (B := asum (products (entries m i) x)). pose proof (cabs_pos y) as Y0.
    apply (err_compose u (W + 1) _ _ (ksub (row_value F (entries m i) x) y) (B + cabs y) Hu); [apply (acc_sub _ _ HF)| |].
    - replace (ksub (ksub (row_value F (entries m i) x) y) (ksub (act CX m x i) y)) with (ksub (row_value F (entries m i) x) (act CX m x i)) by ring. apply row_err_W. fold B. lra.
    - pose proof (row_bound' (entries m i) x) as Q. fold (act CX m x i) in Q. fold B in Q. eapply Rle_trans; [apply cabs_sub|]. lra.
  Qed.
  Lemma csr_start_close : start_close csr_start m N row_rate.
  Proof.
    intros i x _. pose proof (acc_pos _ _ HF) as Hu. unfold csr_start. set (B := asum (products (entries m i) x)). assert (B0 : 0 <= B) by apply asum_pos.
    assert (Hh : cabs cx_half = / 2) by (unfold cx_half; rewrite cabs_re, Rabs_pos_eq; lra).
    apply Rle_trans with (row_rate * (B * / 2)); [|pose proof row_rate_pos; nra]. unfold row_rate. replace (W + 2)%nat with (S (W + 1)) by lia.
    apply (err_compose u (W + 1) _ _ (kmul (row_value F (entries m i) x) cx_half) (B * / 2) Hu); [apply (acc_mul _ _ HF)| |].
    - replace (ksub (kmul (row_value F (entries m i) x) cx_half) (kmul cx_half (act CX m x i))) with (kmul cx_half (ksub (row_value F (entries m i) x) (act CX m x i))) by ring.
      rewrite cabs_mul, Hh. pose proof (row_err_W x i B (Rle_refl _)). lra.
    - rewrite cabs_mul, Hh. pose proof (row_bound' (entries m i) x) as Q. fold (act CX m x i) in Q. fold B in Q. lra.
  Qed.
End Csr.
