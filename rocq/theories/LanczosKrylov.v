(* The Lanczos vectors and the powers of the Hamiltonian. *)
From Verif Require Import Base Scalar Kpm KpmSpec KpmVec KpmCheb RSum Cplx Lanczos TridiagProofs LanczosProofs.
From Coq Require Import Reals Lra.
Local Open Scope R_scope.
Add Ring CXring2 : (k_ring CX).

(** [H^k v] *)
Fixpoint pw (N : nat) (X : nat -> nat -> CX) (v : nat -> CX) (k : nat) : nat -> CX :=
  match k with O => v | S j => cA N X (pw N X v j) end.

Lemma re_add : forall a b, re (a + b) = kadd (re a) (re b). Proof. intros. unfold re. cbn. unfold cx_add. cbn. f_equal; ring. Qed.
Lemma re_mult : forall a b, re (a * b) = kmul (re a) (re b). Proof. intros. unfold re. cbn. unfold cx_mul. cbn. f_equal; ring. Qed.
Lemma re_1 : re 1 = @k1 CX. Proof. reflexivity. Qed.
Lemma re_0 : re 0 = @k0 CX. Proof. reflexivity. Qed.

Section Krylov.
  Variables (N : nat) (X : nat -> nat -> CX) (v : nat -> CX).
  Local Notation pwv := (pw N X v).
  Definition low (k : nat) (u : nat -> CX) : Prop := exists c : nat -> R, forall i, u i = ksum (fun j => kmul (re (c j)) (pwv j i)) (seq 0 k).
  Definition mon (k : nat) (u : nat -> CX) : Prop := exists l, low k l /\ forall i, u i = kadd (pwv k i) (l i).

  Lemma low_S : forall k u, low k u -> low (S k) u.
  Proof.
    intros k u (c & H). exists (fun j => if (j <? k)%nat then c j else 0). intros i. rewrite seq_S, ksum_app, ksum_cons, ksum_nil. cbn [Nat.add].
    rewrite Nat.ltb_irrefl, re_0. rewrite H. rewrite (ksum_ext _ (fun j => kmul (re (if (j <? k)%nat then c j else 0)) (pwv j i)) (fun j => kmul (re (c j)) (pwv j i)));
      [ring|]. intros j Hj. apply in_seq in Hj. destruct (Nat.ltb_spec j k); [reflexivity|lia].
  Qed.
  Lemma low_lin : forall k a u b w, low k u -> low k w -> low k (clin a u b w).
  Proof.
    intros k a u b w (c & Hc) (d & Hd). exists (fun j => a * c j + b * d j). intros i. unfold clin. rewrite Hc, Hd.
    rewrite <- !ksum_mul_l, <- ksum_add. apply ksum_ext. intros j _. rewrite re_add, !re_mult. ring.
  Qed.
  Lemma low_A : forall k u, low k u -> low (S k) (cA N X u).
  Proof.
    intros k u (c & H). exists (fun j => match j with O => 0 | S l => c l end). intros i. cbn [seq]. rewrite ksum_cons, <- seq_shift, ksum_map, re_0.
    unfold cA at 1, ap. rewrite (ksum_ext _ _ (fun j => ksum (fun l => kmul (kmul (X i j) (re (c l))) (pwv l j)) (seq 0 k))).
    - rewrite ksum_swap. replace (kadd _ _) with (ksum (fun l => kmul (re (c l)) (pwv (S l) i)) (seq 0 k)) by ring.
      apply ksum_ext. intros l _. cbn [pw]. unfold cA, ap. rewrite <- ksum_mul_l. apply ksum_ext. intros; ring.
    - intros j _. rewrite H, <- ksum_mul_l. apply ksum_ext. intros; ring.
  Qed.
  Lemma low_ext : forall k u w, (forall i, u i = w i) -> low k u -> low k w.
  Proof. intros k u w E (c & H). exists c. intros i. rewrite <- E. apply H. Qed.
  Lemma mon_low : forall k u, mon k u -> low (S k) u.
  Proof.
    intros k u (l & Hl & H). destruct (low_S k l Hl) as (c & Hc). apply (low_ext (S k) (clin 1 (pwv k) 1 l)).
    - intros i. unfold clin. rewrite H, re_1. ring.
    - apply low_lin; [|exists c; exact Hc]. exists (fun j => if (j =? k)%nat then 1 else 0). intros i. rewrite seq_S, ksum_app, ksum_cons, ksum_nil. cbn [Nat.add].
      rewrite Nat.eqb_refl, re_1. rewrite (ksum_ext _ _ (fun _ => k0)); [rewrite ksum_0 by (intros; reflexivity); ring|]. intros j Hj. apply in_seq in Hj. destruct (Nat.eqb_spec j k); [lia|]. rewrite re_0. ring.
  Qed.
  Lemma mon_A : forall k u, mon k u -> mon (S k) (cA N X u).
  Proof.
    intros k u (l & Hl & H). exists (cA N X l). split; [apply low_A; exact Hl|]. intros i.
    rewrite (cA_ext N X u (clin 1 (pwv k) 1 l)) by (intros j _; rewrite H; unfold clin; rewrite re_1; ring).
    rewrite cA_comb. unfold clin. rewrite re_1. cbn [pw]. ring.
  Qed.
  Lemma mon_plus : forall k u a w, mon k u -> low k w -> mon k (clin 1 u a w).
  Proof.
    intros k u a w (l & Hl & H) Hw. exists (clin 1 l a w). split; [apply low_lin; auto|]. intros i. unfold clin. rewrite H, re_1. ring.
  Qed.
  Lemma mon_ext : forall k u w, (forall i, u i = w i) -> mon k u -> mon k w.
  Proof. intros k u w E (l & Hl & H). exists l. split; [exact Hl|]. intros i. rewrite <- E. apply H. Qed.
End Krylov.

Section Run.
  Variables (N : nat) (m : csr CX) (v : list CX).
  Local Notation vv := (vec v).
  Local Notation X := (coef m).
  Let V := nat -> CX.
  Let Am := cA N X.
  Let lvk := vk V czero clin (crip N) Am vv.
  Let lpk := pk V czero clin (crip N) Am vv.
  Let lbp := bp V czero clin (crip N) Am vv.
  Let lwk := wk V czero clin (crip N) Am vv.
  Fixpoint bprod (k : nat) : R := match k with O => 1 | S j => bprod j * lb N m v j end.
  Lemma lwk_at : forall k i, lwk k i = kadd (kadd (Am (lvk k) i) (kmul (re (- lbp k)) (lpk k i))) (kmul (re (- la N m v k)) (lvk k i)).
  Proof.
    intros k i. change (lwk k i) with (clin 1 (clin 1 (Am (lvk k)) (- lbp k) (lpk k)) (- la N m v k) (lvk k) i). unfold clin. rewrite re_1. ring.
  Qed.

  Lemma vk_mon : forall k, (forall j, (j < k)%nat -> lb N m v j <> 0) ->
    mon N X vv k (fun i => kmul (re (bprod k)) (lvk k i)) /\ low N X vv k (fun i => kmul (re (lbp k * bprod k)) (lpk k i)) /\
    mon N X vv (S k) (fun i => kmul (re (bprod k)) (lwk k i)).
  Proof.
    assert (W : forall k, mon N X vv k (fun i => kmul (re (bprod k)) (lvk k i)) -> low N X vv k (fun i => kmul (re (lbp k * bprod k)) (lpk k i)) ->
      mon N X vv (S k) (fun i => kmul (re (bprod k)) (lwk k i))).
    { intros k H1 H2. apply (mon_ext _ _ _ _ (clin 1 (clin 1 (cA N X (fun i => kmul (re (bprod k)) (lvk k i))) (-1) (fun i => kmul (re (lbp k * bprod k)) (lpk k i)))
        (- la N m v k) (fun i => kmul (re (bprod k)) (lvk k i)))).
      - intros i. rewrite lwk_at. unfold clin. rewrite re_1.
        assert (E : cA N X (fun i => kmul (re (bprod k)) (lvk k i)) i = kmul (re (bprod k)) (Am (lvk k) i)).
        { unfold Am, cA, ap. rewrite <- ksum_mul_l. apply ksum_ext. intros; ring. }
        rewrite E. rewrite re_mult. replace (re (- lbp k)) with (kmul (re (-1)) (re (lbp k))) by (rewrite <- re_mult; f_equal; ring). ring.
      - apply mon_plus; [apply mon_plus|].
        + apply mon_A. exact H1.
        + apply low_S. exact H2.
        + apply mon_low. exact H1. }
    induction k as [|k IH]; intros NZ.
    - assert (H1 : mon N X vv 0 (fun i => kmul (re (bprod 0)) (lvk 0 i))).
      { exists czero. split; [exists (fun _ => 0); reflexivity|]. intros i. unfold lvk, vk, czero. cbn [lz fst snd bprod pw]. rewrite re_1. ring. }
      assert (H2 : low N X vv 0 (fun i => kmul (re (lbp 0 * bprod 0)) (lpk 0 i))).
      { exists (fun _ => 0). intros i. unfold lpk, pk, czero. cbn [lz fst snd seq]. rewrite ksum_nil. ring. }
      auto.
    - destruct (IH ltac:(intros; apply NZ; lia)) as (H1 & H2 & H3).
      assert (K1 : mon N X vv (S k) (fun i => kmul (re (bprod (S k))) (lvk (S k) i))).
      { apply (mon_ext _ _ _ _ _ _ ) with (2 := H3). intros i. unfold lvk. rewrite vk_S. fold Am.
        change (wk V czero clin (crip N) Am vv k) with (lwk k). change (bt V czero clin (crip N) Am vv k) with (lb N m v k).
        unfold clin. cbn [bprod]. rewrite re_mult, re_0.
        assert (E : kmul (re (lb N m v k)) (re (1 / lb N m v k)) = k1) by (rewrite <- re_mult, <- re_1; f_equal; field; apply NZ; lia).
        transitivity (kmul (kmul (re (bprod k)) (kmul (re (lb N m v k)) (re (1 / lb N m v k)))) (lwk k i)); [rewrite E; ring|ring]. }
      assert (K2 : low N X vv (S k) (fun i => kmul (re (lbp (S k) * bprod (S k))) (lpk (S k) i))).
      { apply (low_ext _ _ _ _ (clin (lbp (S k) * lb N m v k) (fun i => kmul (re (bprod k)) (lvk k i)) 0 (fun i => kmul (re (bprod k)) (lvk k i)))).
        - intros i. unfold clin, lpk. rewrite pk_S. cbn [bprod]. change (vk V czero clin (crip N) Am vv k) with (lvk k). rewrite !re_mult, re_0. ring.
        - apply low_lin; apply mon_low; exact H1. }
      auto.
  Qed.

  (** A vanishing residual gives a linear relation between the powers. *)
  Lemma exhausted : forall k, hermitian N X -> (forall j, (j < k)%nat -> lb N m v j <> 0) -> lb N m v k = 0 ->
    exists c : nat -> R, forall i, (i < N)%nat -> pw N X vv (S k) i = ksum (fun j => kmul (re (c j)) (pw N X vv j i)) (seq 0 (S k)).
  Proof.
    intros k HX NZ Z. destruct (vk_mon k NZ) as (_ & _ & (l & (c & Hc) & Hl)). exists (fun j => - c j). intros i Hi.
    assert (W : lwk k i = k0).
    { assert (S : crip N (lwk k) (lwk k) = 0).
      { transitivity (lb N m v k * lb N m v k); [symmetry; apply (bt_sq V czero clin (crip N) Am (crip_pos N) vv k)|]. rewrite Z. ring. }
      rewrite crip_sum in S.
      assert (G : forall n f, (forall j, 0 <= f j) -> rsum f n = 0 -> forall j, (j < n)%nat -> f j = 0).
      { clear. induction n as [|n IH]; intros f P H j Hj; [lia|]. cbn [rsum] in H. pose proof (rsum_nonneg f n ltac:(auto)). pose proof (P n).
        destruct (Nat.eq_dec j n) as [->|]; [lra|]. apply IH; [auto|lra|lia]. }
      assert (Q : forall j, 0 <= fst (lwk k j) * fst (lwk k j) + snd (lwk k j) * snd (lwk k j)) by (intros; nra).
      specialize (G N _ Q S i Hi). cbn beta in G. destruct (lwk k i) as [a b]. cbn [fst snd] in G. clear - G. assert (a = 0) by nra. assert (b = 0) by nra. subst. reflexivity. }
    specialize (Hl i). cbn beta in Hl. rewrite W in Hl. specialize (Hc i). rewrite Hc in Hl.
    rewrite (ksum_ext _ _ (fun j => kmul (re (-1)) (kmul (re (c j)) (pw N X vv j i)))).
    - rewrite ksum_mul_l. replace (re (-1)) with (kopp (@k1 CX)) by (unfold re; cbn; unfold cx_opp; cbn; f_equal; ring).
      set (s := ksum _ _) in *. set (t := pw N X vv (S k) i) in *. assert (kadd t s = k0) by (rewrite <- Hl; ring).
      transitivity (ksub (kadd t s) s); [ring|]. rewrite H. ring.
    - intros j _. replace (re (- c j)) with (kmul (re (-1)) (re (c j))) by (rewrite <- re_mult; f_equal; ring). ring.
  Qed.
End Run.
