(* The rounded kernels meet the contract of the moment loops (C109). *)
From Verif Require Import Base Scalar Kpm KpmSpec KpmVec KpmLoops KpmEll KpmEllProofs RSum Cplx NormProofs Rounding RoundingProofs RoundingLoops RoundingMoments.
From Coq Require Import Reals Lra Ring.
Local Open Scope R_scope.
Add Ring CXringRk : (k_ring CX).

Section Kernels.
  Variables (u : R) (F : arith).
  Hypothesis HF : accurate u F.
  Variables (m : list (list (nat * CX))) (N : nat).
  Hypothesis Hm : wf_csr N m.
  Variable W : nat.
  Hypothesis HW : forall i, (length (entries m i) <= W)%nat.

  (** ** Compressed rows *)
  Lemma row_from_ext : forall row a x x', (forall e, In e row -> x (fst e) = x' (fst e)) -> row_from F a row x = row_from F a row x'.
  Proof.
    intros row a x x'. unfold row_from. revert a. induction row as [|e row IH]; intros a H; [reflexivity|]. cbn [fold_left].
    rewrite (H e (or_introl eq_refl)). apply IH. intros; apply H; right; assumption.
  Qed.
  Lemma ref_rows : forall cell s e x y, ref CX N cell s e x y = upd_rows CX N s e (fun i c => cell i (vec x) c) y.
  Proof. reflexivity. Qed.
  Lemma fl_spmv_ok : forall s e x y, length x = N -> length y = N -> (s <= e)%nat -> (e <= N)%nat -> fl_spmv F m s e x y = Ok (ref CX N (csr_cell F m) s e x y).
  Proof.
    intros s e x y Hx Hy H1 H2. unfold fl_spmv. rewrite ref_rows. replace e with (s + (e - s))%nat at 2 by lia.
    apply (rows_loop CX N _ (fun i c => csr_cell F m i (vec x) c)); [|exact Hy|lia].
    intros y' row Hy' Hrow. destruct Hm as (Hl & Hc & _). rewrite (aget_entries CX) by lia. cbn [obind]. rewrite fl_row_ok by (intros e' He'; rewrite Hx; apply (Hc row e' He')). cbn [obind].
    rewrite (aget_vec CX) by lia. reflexivity.
  Qed.
  Lemma fl_make_r1_ok : forall x, length x = N -> fl_make_r1 F m x = Ok (map (fun i => csr_start F m i (vec x)) (seq 0 N)).
  Proof.
    intros x Hx. unfold fl_make_r1. destruct Hm as (Hl & Hc & _).
    assert (G : forall l a, (forall row, In row l -> forall e, In e row -> (fst e < N)%nat) ->
      ofold (fun r1 row => obind (fl_row F row x) (fun t => Ok (r1 ++ [f_mul F t cx_half]))) l a = Ok (a ++ map (fun row => f_mul F (row_value F row (vec x)) cx_half) l)).
    { induction l as [|row l IH]; intros a H; [cbn; rewrite app_nil_r; reflexivity|]. cbn [ofold map].
      rewrite fl_row_ok by (intros e He; rewrite Hx; apply (H row); [left; reflexivity|exact He]). cbn [obind]. rewrite IH by (intros; eapply H; [right; eassumption|assumption]). rewrite <- app_assoc. reflexivity. }
    rewrite G.
    - f_equal. cbn [app]. rewrite <- Hl. apply (nth_ext _ _ k0 k0); [rewrite !map_length, seq_length; reflexivity|]. rewrite map_length. intros i Hi.
      rewrite (nth_indep _ k0 (f_mul F (row_value F [] (vec x)) cx_half)) by (rewrite map_length; exact Hi). rewrite (map_nth (fun row => f_mul F (row_value F row (vec x)) cx_half)).
      match goal with |- _ = nth i ?l k0 => change (nth i l k0) with (vec l i) end. rewrite (vec_map CX) by exact Hi. reflexivity.
    - intros row Hrow e He. apply In_nth with (d := []) in Hrow. destruct Hrow as (i & Hi & <-). apply (Hc i e He).
  Qed.
  Lemma added : forall s e x y', length x = N -> length y' = N -> (s <= e)%nat -> (e <= N)%nat -> forall m2 m3,
    obind (segment CX s e x) (fun xs => obind (segment CX s e y') (fun ys => Ok (y', f_add F m2 (fl_sq_norm F xs), f_add F m3 (fl_dot F ys xs))))
    = Ok (y', f_add F m2 (fl_dot F (map (vec x) (seq s (e - s))) (map (vec x) (seq s (e - s)))), f_add F m3 (fl_dot F (map (vec y') (seq s (e - s))) (map (vec x) (seq s (e - s))))).
  Proof. intros s e x y' Hx Hy H1 H2 m2 m3. rewrite !(segment_ok CX) by lia. reflexivity. Qed.
  Theorem csr_rounded : rounded u m N (csr_cell F m) (csr_start F m) (row_rate u W) (fl_kernel F m).
  Proof.
    split; [|split; [exact fl_make_r1_ok|split; [|split; [apply (csr_cell_close u F HF m N W HW)|apply (csr_start_close u F HF m N W HW)]]]].
    - split; [exact (proj1 Hm)|]. split; [exact fl_spmv_ok|]. intros s e x y m2 m3 Hx Hy H1 H2. cbn [fl_kernel kr_diag]. unfold fl_spmv_diagonal. rewrite fl_spmv_ok by assumption. cbn [obind].
      rewrite added by (try apply ref_length; assumption). do 2 eexists. split; [reflexivity|]. split; apply (adds_dot u F HF).
    - intros i x x' y H. unfold csr_cell, row_value. rewrite (row_from_ext _ _ x x' H). reflexivity.
  Qed.

  (** ** ELLPACK *)
  Variable e : ell CX.
  Hypothesis Hnnz : (el_nnz CX e <= W)%nat.
  Hypothesis HE : Forall2 (padded CX (el_nnz CX e) N) m (el_rows CX e).
  Local Notation row i := (nth i (el_rows CX e) []).
  Definition ell_cell (i : nat) (x : nat -> CX) (y : CX) : CX := row_from F (kopp y) (row i) x.
  Definition ell_start (i : nat) (x : nat -> CX) : CX := fold_left (fun r p => f_add F r (f_mul F (f_mul F (snd p) (x (fst p))) cx_half)) (row i) k0.
  Lemma row_pad : forall i, (i < N)%nat -> padded CX (el_nnz CX e) N (entries m i) (row i).
  Proof. apply (row_padded CX N m e (proj1 Hm) HE). Qed.
  Lemma row_firstn : forall i k, (i < N)%nat -> (k < el_nnz CX e)%nat -> firstn (S k) (row i) = firstn k (row i) ++ [El CX e i k].
  Proof.
    intros i k Hi Hk. destruct (row_pad i Hi) as (L & _). unfold El. revert Hk. rewrite <- L. generalize (row i). intros l. revert k. induction l as [|a l IH]; intros k Hk; [cbn in Hk; lia|].
    cbn [length] in Hk. destruct k as [|k]; [reflexivity|]. change (firstn (S (S k)) (a :: l)) with (a :: firstn (S k) l). rewrite IH by (apply Nat.succ_lt_mono; exact Hk). reflexivity.
  Qed.
  Lemma row_all : forall i, (i < N)%nat -> firstn (el_nnz CX e) (row i) = row i.
  Proof. intros i Hi. destruct (row_pad i Hi) as (L & _). rewrite <- L. apply firstn_all. Qed.
  Lemma fl_ell_spmv_ok : forall s e' x y, length x = N -> length y = N -> (s <= e')%nat -> (e' <= N)%nat -> fl_ell_spmv F e s e' x y = Ok (ref CX N ell_cell s e' x y).
  Proof.
    intros s e' x y Hx Hy H1 H2. unfold fl_ell_spmv, negate_rows. rewrite (negate_ok CX N m (proj1 Hm) s (e' - s) y) by (auto; lia). cbn [obind]. replace (s + (e' - s))%nat with e' by lia.
    match goal with |- ofold ?f _ _ = _ => set (G := f) end.
    assert (K : forall k, (k <= el_nnz CX e)%nat -> ofold G (seq 0 k) (upd_rows CX N s e' (fun _ c => kopp c) y) = Ok (upd_rows CX N s e' (fun i c => row_from F (kopp c) (firstn k (row i)) (vec x)) y)).
    { induction k as [|k IH]; intros Hk.
      - cbn. f_equal.
      - rewrite seq_S, (KpmEllProofs.ofold_app), IH by lia. cbn [obind ofold Nat.add]. unfold G at 1.
        rewrite (rows_loop CX N _ (fun i c => f_add F c (f_mul F (snd (El CX e i k)) (vec x (fst (El CX e i k)))))).
        + cbn [obind]. replace (s + (e' - s))%nat with e' by lia. rewrite upd_rows_twice. f_equal. apply upd_rows_ext. intros i Hi _ _. rewrite row_firstn by assumption. unfold row_from. rewrite fold_left_app. reflexivity.
        + intros y' r Hy' Hr. destruct (el_get_ok CX N m e (proj1 Hm) HE r k Hr ltac:(lia)) as (E1 & E2). rewrite E1. cbn [obind]. rewrite (aget_vec CX) by lia. cbn [obind]. rewrite (aget_vec CX) by lia. reflexivity.
        + apply upd_rows_length.
        + lia. }
    rewrite K by lia. f_equal. rewrite ref_rows. apply upd_rows_ext. intros i Hi _ _. rewrite row_all by exact Hi. reflexivity.
  Qed.
  Lemma fl_ell_make_r1_ok : forall x, length x = N -> fl_ell_make_r1 F e x = Ok (map (fun i => ell_start i (vec x)) (seq 0 N)).
  Proof.
    intros x Hx. unfold fl_ell_make_r1. rewrite (rows_len CX N m e (proj1 Hm) HE). match goal with |- ofold ?f _ _ = _ => set (G := f) end.
    assert (Hz : forall i, vec (repeat (@k0 CX) N) i = k0) by (intros i; unfold vec; clear; revert i; induction N as [|k IHk]; intros [|i]; cbn; auto).
    assert (K : forall k, (k <= el_nnz CX e)%nat -> ofold G (seq 0 k) (repeat k0 N) = Ok (map (fun i => fold_left (fun r p => f_add F r (f_mul F (f_mul F (snd p) (vec x (fst p))) cx_half)) (firstn k (row i)) k0) (seq 0 N))).
    { induction k as [|k IH]; intros Hk.
      - cbn. f_equal. apply (vec_ext CX); [rewrite repeat_length, map_length, seq_length; auto|]. rewrite repeat_length. intros i Hi. rewrite Hz, (vec_map CX) by auto. reflexivity.
      - rewrite seq_S, (KpmEllProofs.ofold_app), IH by lia. cbn [obind ofold Nat.add]. unfold G at 1.
        rewrite (rows_loop CX N _ (fun i c => f_add F c (f_mul F (f_mul F (snd (El CX e i k)) (vec x (fst (El CX e i k)))) cx_half))).
        + cbn [obind]. f_equal. unfold upd_rows. apply map_ext_in. intros i Hi. apply in_seq in Hi. unfold in_rows. destruct (Nat.leb_spec 0 i); [|lia]. destruct (Nat.ltb_spec i (0 + N)); [|lia]. cbn [andb].
          rewrite (vec_map CX) by lia. rewrite row_firstn by lia. rewrite fold_left_app. reflexivity.
        + intros y' r Hy' Hr. destruct (el_get_ok CX N m e (proj1 Hm) HE r k Hr ltac:(lia)) as (E1 & E2). rewrite E1. cbn [obind]. rewrite (aget_vec CX) by lia. cbn [obind]. rewrite (aget_vec CX) by lia. reflexivity.
        + rewrite map_length, seq_length. auto.
        + lia. }
    rewrite K by lia. f_equal. apply map_ext_in. intros i Hi. apply in_seq in Hi. rewrite row_all by lia. reflexivity.
  Qed.
  (** The padding contributes nothing. *)
  Lemma padded_row : forall i x, (i < N)%nat -> asum (products (row i) x) = asum (products (entries m i) x) /\ ksum (fun p => kmul (snd p) (x (fst p))) (row i) = act CX m x i.
  Proof.
    intros i x Hi. destruct (row_pad i Hi) as (_ & _ & z & -> & Hz). unfold products. rewrite map_app, asum_app, ksum_app. fold (act CX m x i).
    assert (Z : asum (map (fun e0 => kmul (snd e0) (x (fst e0))) z) = 0 /\ ksum (fun p => kmul (snd p) (x (fst p))) z = @k0 CX).
    { induction z as [|p z IH]; [split; reflexivity|]. cbn [map asum fold_right]. fold (asum (map (fun e0 => kmul (snd e0) (x (fst e0))) z)). rewrite ksum_cons. rewrite (Hz p (or_introl eq_refl)).
      destruct IH as (I1 & I2); [intros q Hq; apply Hz; right; exact Hq|]. rewrite I1, I2. replace (kmul k0 (x (fst p))) with (@k0 CX) by ring. rewrite cabs_0. split; [lra|ring]. }
    destruct Z as (-> & ->). split; [lra|]. unfold act. ring.
  Qed.
  Lemma ell_cell_close : cell_close ell_cell m N (row_rate u W).
  Proof.
    intros i x y Hi. pose proof (acc_pos _ _ HF) as Hu. unfold ell_cell. destruct (padded_row i x Hi) as (P1 & P2). destruct (row_pad i Hi) as (L & _).
    pose proof (row_from_error u F HF (row i) (kopp y) x) as E. rewrite P1, P2, cabs_opp in E. replace (kadd (kopp y) (act CX m x i)) with (ksub (act CX m x i) y) in E by ring.
    eapply Rle_trans; [exact E|]. pose proof (asum_pos (products (entries m i) x)). pose proof (cabs_pos y). replace (asum (products (entries m i) x) + cabs y) with (cabs y + asum (products (entries m i) x)) by ring.
    apply Rmult_le_compat_r; [lra|]. unfold row_rate. assert ((1 + u) ^ S (length (row i)) <= (1 + u) ^ (W + 2)) by (apply pow_up; [exact Hu|lia]). lra.
  Qed.
  Lemma ell_start_close : start_close ell_start m N (row_rate u W).
  Proof.
    intros i x Hi. pose proof (acc_pos _ _ HF) as Hu. unfold ell_start. destruct (padded_row i x Hi) as (P1 & P2). destruct (row_pad i Hi) as (L & _).
    assert (Hh : cabs cx_half = / 2) by (unfold cx_half; rewrite cabs_re, Rabs_pos_eq; lra).
    pose proof (terms_error u F HF (nat * CX) (fun p => f_mul F (f_mul F (snd p) (x (fst p))) cx_half) (fun p => kmul (kmul (snd p) (x (fst p))) cx_half) 2 ltac:(lia) (row i) k0 k0 0 2) as E.
    assert (T : forall p, In p (row i) -> cabs (ksub (f_mul F (f_mul F (snd p) (x (fst p))) cx_half) (kmul (kmul (snd p) (x (fst p))) cx_half)) <= ((1 + u) ^ 2 - 1) * cabs (kmul (kmul (snd p) (x (fst p))) cx_half)).
    { intros p _. set (h := kmul (snd p) (x (fst p))). apply (err_compose u 1 _ _ (kmul (f_mul F (snd p) (x (fst p))) cx_half) _ Hu); [apply (acc_mul _ _ HF)| |lra].
      replace (ksub (kmul (f_mul F (snd p) (x (fst p))) cx_half) (kmul h cx_half)) with (kmul (ksub (f_mul F (snd p) (x (fst p))) h) cx_half) by ring. rewrite !cabs_mul, Hh, pow_1.
      pose proof (acc_mul _ _ HF (snd p) (x (fst p))) as A. fold h in A. lra. }
    specialize (E T (le_n 2)). rewrite cabs_0 in E. replace (ksub k0 k0) with (@k0 CX) in E by ring. rewrite cabs_0 in E. specialize (E (Rle_refl 0) ltac:(lra)).
    assert (S1 : ksum (fun p => kmul (kmul (snd p) (x (fst p))) cx_half) (row i) = kmul cx_half (act CX m x i)).
    { rewrite <- P2. rewrite <- ksum_mul_l. apply ksum_ext. intros p _. ring. }
    assert (S2 : asum (map (fun p => kmul (kmul (snd p) (x (fst p))) cx_half) (row i)) = / 2 * asum (products (entries m i) x)).
    { rewrite <- P1. unfold products. generalize (row i). intros l. induction l as [|p l IH]; [cbn; lra|]. cbn [map asum fold_right]. fold (asum (map (fun e0 => kmul (snd e0) (x (fst e0))) l)).
      fold (asum (map (fun p0 => kmul (kmul (snd p0) (x (fst p0))) cx_half) l)). rewrite IH, (cabs_mul _ cx_half), Hh. lra. }
    rewrite S1, S2 in E. replace (kadd k0 (kmul cx_half (act CX m x i))) with (kmul cx_half (act CX m x i)) in E by ring. eapply Rle_trans; [exact E|].
    pose proof (asum_pos (products (entries m i) x)). rewrite Rplus_0_l. unfold row_rate. assert ((1 + u) ^ (2 + length (row i)) <= (1 + u) ^ (W + 2)) by (apply pow_up; [exact Hu|lia]). pose proof (pow_ge1 u (2 + length (row i)) Hu).
    apply Rmult_le_compat; lra.
  Qed.
  Lemma ell_ext : forall i x x' y, (forall p, In p (entries m i) -> x (fst p) = x' (fst p)) -> ell_cell i x y = ell_cell i x' y.
  Proof.
    intros i x x' y H. unfold ell_cell. destruct (Nat.lt_ge_cases i N) as [Hi|Hi].
    - destruct (row_pad i Hi) as (_ & _ & z & -> & Hz). unfold row_from. rewrite !fold_left_app.
      pose proof (row_from_ext (entries m i) (kopp y) x x' H) as E. unfold row_from in E. rewrite E. generalize (fold_left (fun r p => f_add F r (f_mul F (snd p) (x' (fst p)))) (entries m i) (kopp y)). intros a. revert a.
      induction z as [|p z IH]; intros a; [reflexivity|]. cbn [fold_left]. rewrite (Hz p (or_introl eq_refl)), !(mul_zero u F HF). apply IH. intros q Hq. apply Hz. right. exact Hq.
    - rewrite nth_overflow by (rewrite (rows_len CX N m e (proj1 Hm) HE); exact Hi). reflexivity.
  Qed.
  Lemma ell_rounded : rounded u m N ell_cell ell_start (row_rate u W) (Kernel (length (el_rows CX e)) (fl_ell_spmv F e) (fl_ell_diag F e) (fl_ell_make_r1 F e)).
  Proof.
    split; [|split; [exact fl_ell_make_r1_ok|split; [exact ell_ext|split; [exact ell_cell_close|exact ell_start_close]]]].
    split; [exact (rows_len CX N m e (proj1 Hm) HE)|]. split; [exact fl_ell_spmv_ok|]. intros s e' x y m2 m3 Hx Hy H1 H2. cbn [kr_diag]. unfold fl_ell_diag. rewrite fl_ell_spmv_ok by assumption. cbn [obind].
    rewrite added by (try apply ref_length; assumption). do 2 eexists. split; [reflexivity|]. split; apply (adds_dot u F HF).
  Qed.
End Kernels.

Theorem ell_kernel_rounded : forall u F m N W, accurate u F -> wf_csr N m -> (0 < N)%nat -> (forall i, (length (entries m i) <= W)%nat) ->
  exists cell start, rounded u m N cell start (row_rate u W) (fl_ell_kernel F m).
Proof.
  intros u F m N W HF Hm HN HW. assert (Hr : in_range CX m N) by (destruct Hm as (A & B & _); split; assumption).
  destruct (csr_to_ell_ok CX m N Hr HN) as (e & E & En & HE). unfold fl_ell_kernel. rewrite E. rewrite <- En in HE.
  exists (ell_cell F e), (ell_start F e). apply (ell_rounded u F HF m N Hm W e); [|exact HE].
  rewrite En. unfold max_nnz_per_row. assert (G : forall (l : list (list (nat * CX))) a, (a <= W)%nat -> (forall row, In row l -> (length row <= W)%nat) -> (fold_left (fun mx row => if (mx <? length row)%nat then length row else mx) l a <= W)%nat).
  { induction l as [|row l IH]; intros a Ha Hl; [exact Ha|]. cbn [fold_left]. apply IH; [|intros; apply Hl; right; assumption]. destruct (a <? length row)%nat; [apply Hl; left; reflexivity|exact Ha]. }
  apply G; [lia|]. intros row Hrow. apply In_nth with (d := []) in Hrow. destruct Hrow as (i & _ & <-). apply (HW i).
Qed.
