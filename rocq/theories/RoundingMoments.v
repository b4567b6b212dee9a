(* Rounding errors of the moments, for every loop option and kernel (C109). *)
From Verif Require Import Base Scalar Kpm KpmSpec KpmVec KpmLoops KpmMoments KpmCheb KpmGram KpmRun RSum Cplx Spectral SpectralProofs NormProofs Rounding RoundingProofs RoundingLoops.
From Coq Require Import Reals Lra Ring.
Local Open Scope R_scope.
Local Notation dm := (nat -> nat -> CX).
Add Ring CXringRm : (k_ring CX).

Lemma err_step : forall u e z zh w B, 0 <= u -> cabs (ksub zh w) <= u * cabs w -> cabs (ksub w z) <= (e - 1) * B -> cabs z <= B ->
  cabs (ksub zh z) <= ((1 + u) * e - 1) * B.
Proof.
  intros u e z zh w B Hu H1 H2 H3. pose proof (cabs_diff w z) as D. pose proof (cabs_pos z) as Z.
  replace (ksub zh z) with (kadd (ksub zh w) (ksub w z)) by ring. eapply Rle_trans; [apply cabs_add|].
  assert (W : cabs w <= e * B) by nra. assert (u * cabs w <= u * (e * B)) by (apply Rmult_le_compat_l; assumption). nra.
Qed.
Lemma inner_sub_l : forall N a b c, inner CX N (fun i => ksub (a i) (b i)) c = ksub (inner CX N a c) (inner CX N b c).
Proof.
  intros N a b c. unfold inner. rewrite <- ksum_sub. apply ksum_ext. intros i _.
  assert (E : kconj (ksub (a i) (b i)) = ksub (kconj (a i)) (kconj (b i))).
  { destruct (a i) as [p q], (b i) as [s t]. cbn. unfold cx_sub, cx_add, cx_opp, cx_conj. cbn. f_equal; ring. }
  rewrite E. ring.
Qed.
Lemma inner_sub_r : forall N a b c, inner CX N c (fun i => ksub (a i) (b i)) = ksub (inner CX N c a) (inner CX N c b).
Proof. intros N a b c. unfold inner. rewrite <- ksum_sub. apply ksum_ext. intros i _. ring. Qed.

(** Products of the elements listed in [l], and the sum of their absolute values. *)
Definition prods (y x : nat -> CX) (l : list nat) : list CX := map (fun i => kmul (kconj (y i)) (x i)) l.
Definition absolute (y x : nat -> CX) (l : list nat) : R := asum (prods y x l).
Lemma absolute_pos : forall y x l, 0 <= absolute y x l. Proof. intros. apply asum_pos. Qed.
Lemma asum_app : forall a b, asum (a ++ b) = asum a + asum b.
Proof. intros a b. induction a as [|z a IH]; [cbn [app]; change (asum []) with 0; lra|]. cbn [app asum fold_right]. fold (asum (a ++ b)). fold (asum a). rewrite IH. lra. Qed.
Lemma absolute_app : forall y x a b, absolute y x (a ++ b) = absolute y x a + absolute y x b.
Proof. intros. unfold absolute, prods. rewrite map_app. apply asum_app. Qed.
Lemma absolute_ext : forall y y' x x' l, (forall i, In i l -> y i = y' i /\ x i = x' i) -> absolute y x l = absolute y' x' l.
Proof. intros y y' x x' l H. unfold absolute, prods. f_equal. apply map_ext_in. intros i Hi. destruct (H i Hi) as (-> & ->). reflexivity. Qed.
Lemma absolute_bound : forall y x l, cabs (ksum (fun i => kmul (kconj (y i)) (x i)) l) <= absolute y x l.
Proof. intros. unfold absolute, prods. eapply Rle_trans; [|apply asum_ksum]. rewrite ksum_map. lra. Qed.

Section Moments.
  Variables (u : R) (F : arith).
  Hypothesis HF : accurate u F.
  Local Notation csr := (list (list (nat * CX))).

  (** ** Scalar products *)
  Lemma asum_rsum : forall (f : nat -> CX) n, asum (map f (seq 0 n)) = rsum (fun i => cabs (f i)) n.
  Proof.
    intros f n. induction n as [|n IH]; [reflexivity|]. rewrite seq_S, map_app. cbn [rsum map Nat.add]. rewrite <- IH.
    generalize (map f (seq 0 n)). intros l. induction l as [|z l IHl]; cbn [app asum fold_right]; [lra|]. fold (asum (l ++ [f n])). fold (asum l). rewrite IHl. lra.
  Qed.
  Lemma absolute_rsum : forall y x N, absolute y x (seq 0 N) = rsum (fun i => cabs (y i) * cabs (x i)) N.
  Proof. intros y x N. unfold absolute, prods. rewrite asum_rsum. apply rsum_ext. intros i _. rewrite cabs_mul, cabs_conj. reflexivity. Qed.
  Lemma absolute_cauchy : forall y x N, absolute y x (seq 0 N) <= nrm N y * nrm N x.
  Proof. intros y x N. rewrite absolute_rsum. apply cauchy. Qed.
  Lemma fl_dot_map : forall (y x : nat -> CX) l, fl_dot F (map y l) (map x l) = f_sum F (map (fun i => f_mul F (kconj (y i)) (x i)) l).
  Proof. intros y x l. unfold fl_dot. f_equal. induction l as [|i l IH]; [reflexivity|]. cbn [map combine fst snd]. rewrite IH. reflexivity. Qed.
  Lemma dot_list : forall (y x : nat -> CX) l, cabs (ksub (fl_dot F (map y l) (map x l)) (ksum (fun i => kmul (kconj (y i)) (x i)) l)) <= ((1 + u) ^ S (length l) - 1) * absolute y x l.
  Proof.
    intros y x l. pose proof (acc_pos _ _ HF) as Hu. rewrite fl_dot_map.
    set (p := fun i => f_mul F (kconj (y i)) (x i)). set (q := fun i => kmul (kconj (y i)) (x i)).
    assert (P : forall i, cabs (ksub (p i) (q i)) <= u * cabs (q i)) by (intros i; apply (acc_mul _ _ HF)).
    pose proof (absolute_pos y x l) as B0. set (B := absolute y x l) in *.
    assert (S1 : asum (map p l) <= (1 + u) * B /\ cabs (ksub (ksum p l) (ksum q l)) <= u * B).
    { unfold B, absolute, prods. fold q. clear B B0. induction l as [|i l (IH1 & IH2)].
      - cbn [map asum fold_right]. rewrite !ksum_nil. replace (ksub k0 k0) with (@k0 CX) by ring. rewrite cabs_0. lra.
      - cbn [map asum fold_right]. fold (asum (map p l)). fold (asum (map q l)). rewrite !ksum_cons. specialize (P i). pose proof (cabs_diff (p i) (q i)). split; [fold (q i); lra|].
        replace (ksub (kadd (p i) (ksum p l)) (kadd (q i) (ksum q l))) with (kadd (ksub (p i) (q i)) (ksub (ksum p l) (ksum q l))) by ring.
        eapply Rle_trans; [apply cabs_add|]. fold (q i). lra. }
    destruct S1 as (S1 & S2).
    assert (S3 : cabs (ksub (f_sum F (map p l)) (ksum p l)) <= ((1 + u) ^ length l - 1) * asum (map p l)).
    { pose proof (acc_sum _ _ HF (map p l)) as A. rewrite map_length, ksum_map in A. exact A. }
    replace (ksub (f_sum F (map p l)) (ksum q l)) with (kadd (ksub (f_sum F (map p l)) (ksum p l)) (ksub (ksum p l) (ksum q l))) by ring.
    eapply Rle_trans; [apply cabs_add|]. pose proof (pow_ge1 u (length l) Hu) as G. cbn [pow].
    assert (((1 + u) ^ length l - 1) * asum (map p l) <= ((1 + u) ^ length l - 1) * ((1 + u) * B)) by (apply Rmult_le_compat_l; lra). lra.
  Qed.
  Lemma dot_error : forall N x y, length x = N -> length y = N ->
    cabs (ksub (fl_dot F x y) (inner CX N (vec x) (vec y))) <= ((1 + u) ^ (N + 1) - 1) * (nrm N (vec x) * nrm N (vec y)).
  Proof.
    intros N x y Hx Hy. pose proof (acc_pos _ _ HF) as Hu. rewrite (list_as_map CX x) at 1. rewrite (list_as_map CX y) at 1. rewrite Hx, Hy.
    eapply Rle_trans; [apply (dot_list (vec x) (vec y) (seq 0 N))|]. rewrite seq_length, Nat.add_1_r. apply Rmult_le_compat_l; [pose proof (pow_ge1 u (S N) Hu); lra|apply absolute_cauchy].
  Qed.
  (** One piece is added to what was there. *)
  Definition adds (s e : nat) (y x : nat -> CX) (v v' : CX) : Prop :=
    cabs (ksub v' (kadd v (ksum (fun i => kmul (kconj (y i)) (x i)) (seq s (e - s))))) <= ((1 + u) ^ (e - s + 2) - 1) * (cabs v + absolute y x (seq s (e - s))).
  Lemma adds_same : forall s e y y' x x' v v', (forall i, (s <= i)%nat -> (i < e)%nat -> y i = y' i /\ x i = x' i) -> adds s e y x v v' -> adds s e y' x' v v'.
  Proof.
    intros s e y y' x x' v v' H A. unfold adds in *. assert (E : forall i, In i (seq s (e - s)) -> y i = y' i /\ x i = x' i) by (intros i Hi; apply in_seq in Hi; apply H; lia).
    rewrite <- (absolute_ext y y' x x' _ E). rewrite (ksum_ext CX (fun i => kmul (kconj (y' i)) (x' i)) (fun i => kmul (kconj (y i)) (x i))); [exact A|].
    intros i Hi. destruct (E i Hi) as (-> & ->). reflexivity.
  Qed.
  Lemma gathered_error : forall y x e v p, gathered CX adds y x e v p ->
    cabs (ksub v (ksum (fun i => kmul (kconj (y i)) (x i)) (seq 0 e))) <= ((1 + u) ^ (e + 2 * p) - 1) * absolute y x (seq 0 e).
  Proof.
    intros y x e v p G. pose proof (acc_pos _ _ HF) as Hu. induction G as [|s e v v' p G IH Hse A].
    - cbn [seq]. rewrite ksum_nil. change (absolute y x []) with 0. replace (ksub k0 k0) with (@k0 CX) by ring. rewrite cabs_0. lra.
    - assert (Es : seq 0 e = seq 0 s ++ seq s (e - s)) by (replace e with (s + (e - s))%nat at 1 by lia; rewrite seq_app; reflexivity).
      rewrite Es, ksum_app, absolute_app. unfold adds in A.
      set (S1 := ksum (fun i => kmul (kconj (y i)) (x i)) (seq 0 s)) in *. set (S2 := ksum (fun i => kmul (kconj (y i)) (x i)) (seq s (e - s))) in *.
      pose proof (absolute_bound y x (seq 0 s)) as M. fold S1 in M. pose proof (absolute_pos y x (seq s (e - s))) as P2. set (B := absolute y x (seq 0 s)) in *. set (B' := absolute y x (seq s (e - s))) in *.
      replace (e + 2 * S p)%nat with ((e - s + 2) + (s + 2 * p))%nat by lia. rewrite pow_add. set (q := (1 + u) ^ (e - s + 2)) in *. set (a := (1 + u) ^ (s + 2 * p)) in *.
      assert (Q : 1 <= q) by (apply pow_ge1; exact Hu). assert (Aa : 1 <= a) by (apply pow_ge1; exact Hu). pose proof (cabs_diff v S1) as V. pose proof (cabs_pos S1) as P1.
      assert (B0 : 0 <= B) by lra. assert (Va : cabs v <= a * B) by lra.
      replace (ksub v' (kadd S1 S2)) with (kadd (ksub v' (kadd v S2)) (ksub v S1)) by ring. eapply Rle_trans; [apply cabs_add|].
      assert ((q - 1) * (cabs v + B') <= (q - 1) * (a * B + B')) by (apply Rmult_le_compat_l; lra).
      assert ((q - 1) * B' <= (q * a - 1) * B') by (apply Rmult_le_compat_r; [exact P2|nra]). lra.
  Qed.
  Lemma adds_dot : forall s e y x v, adds s e y x v (f_add F v (fl_dot F (map y (seq s (e - s))) (map x (seq s (e - s))))).
  Proof.
    intros s e y x v. pose proof (acc_pos _ _ HF) as Hu. unfold adds. pose proof (dot_list y x (seq s (e - s))) as D. rewrite seq_length in D. replace (e - s + 2)%nat with (S (S (e - s))) by lia.
    pose proof (absolute_bound y x (seq s (e - s))) as M. set (B := absolute y x (seq s (e - s))) in *. set (d := fl_dot F (map y (seq s (e - s))) (map x (seq s (e - s)))) in *. pose proof (cabs_pos v) as V.
    apply (err_compose u (S (e - s)) _ _ (kadd v d) (cabs v + B) Hu); [apply (acc_add _ _ HF)| |eapply Rle_trans; [apply cabs_add|]; lra].
    match goal with |- cabs ?t <= _ => replace t with (ksub d (ksum (fun i => kmul (kconj (y i)) (x i)) (seq s (e - s)))) by ring end.
    eapply Rle_trans; [exact D|]. pose proof (pow_ge1 u (S (e - s)) Hu). nra.
  Qed.

  (** ** Results of the loops *)
  Variables (m : csr) (N : nat).
  Hypothesis Hm : wf_csr N m.
  Variable sm : slice_map.
  Hypothesis Hlay : layered CX m N sm.
  Variables (cell : nat -> (nat -> CX) -> CX -> CX) (start : nat -> (nat -> CX) -> CX) (g : R).
  Hypothesis Hg : 0 <= g.
  Variable kr : kernel CX.
  (** What is asked of a kernel. *)
  Definition rounded : Prop :=
    rounds CX N cell adds kr
    /\ (forall x, length x = N -> kr_r1 kr x = Ok (map (fun i => start i (vec x)) (seq 0 N)))
    /\ (forall i x x' y, (forall e, In e (entries m i) -> x (fst e) = x' (fst e)) -> cell i x y = cell i x' y)
    /\ cell_close cell m N g /\ start_close start m N g.
  Hypothesis Hk : rounded.
  Variable r0 : list CX.
  Hypothesis Hr0 : length r0 = N.
  Notation t := (steps cell start (vec r0)).
  Variable al : algorithm.
  Hypothesis Hsrc : al_size al = true -> forall i, (i < N)%nat -> (sm_src sm < layer sm i)%nat -> vec r0 i = k0.
  Lemma zero_products : forall i x, (forall e, In e (entries m i) -> x (fst e) = k0) -> asum (products (entries m i) x) = 0 /\ act CX m x i = k0.
  Proof.
    intros i x H. unfold act, products. induction (entries m i) as [|e row IH]; [split; reflexivity|]. cbn [map asum fold_right]. rewrite ksum_cons.
    destruct IH as (I1 & I2); [intros e' He'; apply H; right; exact He'|]. fold (asum (map (fun e => kmul (snd e) (x (fst e))) row)). rewrite I1, I2, (H e (or_introl eq_refl)).
    replace (kmul (snd e) k0) with (@k0 CX) by ring. rewrite cabs_0. split; [lra|ring].
  Qed.
  Lemma cell_nothing : forall i x, (i < N)%nat -> (forall e, In e (entries m i) -> x (fst e) = k0) -> cell i x k0 = k0.
  Proof.
    intros i x Hi H. destruct Hk as (_ & _ & _ & C & _). pose proof (C i x k0 Hi) as E. destruct (zero_products i x H) as (Z1 & Z2). rewrite Z1, Z2, cabs_0 in E.
    replace (ksub (cell i x k0) (ksub k0 k0)) with (cell i x k0) in E by ring. apply exact_zero. lra.
  Qed.
  Lemma start_nothing : forall i x, (i < N)%nat -> (forall e, In e (entries m i) -> x (fst e) = k0) -> start i x = k0.
  Proof.
    intros i x Hi H. destruct Hk as (_ & _ & _ & _ & C). pose proof (C i x Hi) as E. destruct (zero_products i x H) as (Z1 & Z2). rewrite Z1, Z2 in E.
    replace (ksub (start i x) (kmul cx_half k0)) with (start i x) in E by ring. apply exact_zero. lra.
  Qed.
  Lemma in_range_m : in_range CX m N. Proof. destruct Hm as (A & B & _). split; assumption. Qed.
  Lemma t_supported : al_size al = true -> (forall i, (i < N)%nat -> (sm_src sm < layer sm i)%nat -> t 0%nat i = k0) /\ (forall i, (i < N)%nat -> (S (sm_src sm) < layer sm i)%nat -> t 1%nat i = k0).
  Proof.
    intros Ho. split; [apply Hsrc; exact Ho|]. intros i Hi Hl. change (t 1%nat i) with (start i (vec r0)). apply start_nothing; [exact Hi|]. intros e He.
    destruct (neighbour CX m N sm in_range_m Hlay i e Hi He) as (A & _ & B). apply (Hsrc Ho); [exact A|lia].
  Qed.
  Definition r1 : list CX := map (fun i => start i (vec r0)) (seq 0 N).
  Lemma r1_length : length r1 = N. Proof. unfold r1. rewrite map_length, seq_length. reflexivity. Qed.
  Lemma r1_at : forall i, (i < N)%nat -> vec r1 i = t 1%nat i. Proof. intros i Hi. unfold r1. rewrite (vec_map CX) by exact Hi. reflexivity. Qed.
  Local Notation v num := (buf CX N sm cell (al_size al) num r0 r1).
  Lemma v_needed : forall num n, (n < num)%nat -> forall i, (i < N)%nat -> (al_size al = true -> (layer sm i <= num - 1 - n + sm_dest sm)%nat) -> vec (v num n) i = t n i.
  Proof.
    intros num n Hn i Hi Hne. apply (buf_needed CX m N sm in_range_m Hlay cell (proj1 (proj2 (proj2 Hk))) (al_size al) num r0 r1); auto.
    - exact r1_length.
    - apply r1_at.
    - intros; apply cell_nothing; assumption.
    - exact t_supported.
  Qed.

  Lemma run_units_steps : forall num dest, (al_inter al = true -> Nat.even num = true) -> (2 <= num)%nat ->
    (forall d, In d dest -> (d < N)%nat /\ (al_size al = true -> (layer sm d <= sm_dest sm)%nat)) ->
    run_units CX cx_half kr sm al num dest r0 = Ok (map (fun d => map (fun n => halved cx_half n (t n d)) (seq 0 num)) dest).
  Proof.
    intros num dest Hev Hnum Hd. unfold run_units. destruct Hk as (Hro & H1 & Hext & _).
    assert (Hall : forallb (fun d => (d <? length r0)%nat) dest = true) by (apply forallb_forall; intros d Hin; apply Nat.ltb_lt; rewrite Hr0; apply Hd; exact Hin).
    rewrite Hall. cbn [negb]. rewrite H1 by exact Hr0. cbn [obind]. fold r1.
    assert (L : (if al_inter al then interleaved_off CX kr sm (al_size al) _ (unit_collect CX dest) else basic_off CX kr sm (al_size al) _ (unit_collect CX dest)) num (unit_initial CX cx_half num dest r0 r1) r0 r1
      = Ok (fold_left (fun c n => unit_collect CX dest c n (v num n)) (seq 2 (num - 2)) (unit_initial CX cx_half num dest r0 r1))).
    { destruct (al_inter al).
      - apply (interleaved_off_buf CX m N sm in_range_m Hlay cell Hext adds kr Hro (al_size al) num r0 r1 Hr0 r1_length (Hev eq_refl)).
      - apply (basic_off_buf CX m N sm Hlay cell adds kr Hro (al_size al) num r0 r1 Hr0 r1_length). }
    rewrite L. f_equal.
    assert (G : forall l (f : nat -> list CX), (forall n, In n l -> (n < num)%nat) -> fold_left (fun c n => unit_collect CX dest c n (v num n)) l (map f dest) = map (fun d => fold_left (fun c n => upd c n (t n d)) l (f d)) dest).
    { induction l as [|n l IH]; intros f Hl; [reflexivity|]. cbn [fold_left].
      assert (E : unit_collect CX dest (map f dest) n (v num n) = map (fun d => upd (f d) n (t n d)) dest).
      { unfold unit_collect. assert (Q : forall ds, (forall d, In d ds -> In d dest) -> map (fun p => upd (snd p) n (nth (fst p) (v num n) k0)) (combine ds (map f ds)) = map (fun d => upd (f d) n (t n d)) ds).
        { induction ds as [|d ds IHd]; intros Hds; [reflexivity|]. cbn [map combine fst snd]. rewrite IHd by (intros; apply Hds; right; assumption). f_equal. f_equal.
          destruct (Hd d (Hds d (or_introl eq_refl))) as (D1 & D2). apply (v_needed num n (Hl n (or_introl eq_refl)) d D1). intros Ho. specialize (D2 Ho). lia. }
        apply Q. auto. }
      rewrite E, (IH (fun d => upd (f d) n (t n d))) by (intros; apply Hl; right; assumption). reflexivity. }
    unfold unit_initial. rewrite (G _ (fun d => upd (upd (repeat k0 num) 0 (kmul (nth d r0 k0) cx_half)) 1 (nth d r1 k0))) by (intros n Hn; apply in_seq in Hn; lia). apply map_ext_in. intros d Hin.
    rewrite <- (collect_all CX cx_half (fun n => t n d) num Hnum). change (nth d r0 k0) with (t 0%nat d). change (nth d r1 k0) with (vec r1 d). rewrite r1_at by (apply Hd; exact Hin). reflexivity.
  Qed.

  Lemma fl_collect_all : forall (f f' mu : nat -> CX) num m0 m1, Nat.even num = true -> (2 <= num)%nat ->
    (forall n, (2 <= n)%nat -> (n <= num / 2)%nat -> f_mul F (re 2) (f_sub F (f n) m0) = mu (2 * (n - 1))%nat) ->
    (forall n, (2 <= n)%nat -> (n <= num / 2)%nat -> f_sub F (f_mul F (re 2) (f' n)) m1 = mu (2 * (n - 1) + 1)%nat) ->
    m0 = mu 0%nat -> m1 = mu 1%nat ->
    dg_moments CX (fold_left (fun c n => fl_collect F c n (f n) (f' n)) (seq 2 (num / 2 - 1)) (DiagState CX (upd (upd (repeat k0 num) 0 m0) 1 m1) m0 m1))
    = map mu (seq 0 num).
  Proof.
    intros f f' mu num m0 m1 Hev Hnum Hf Hf' H0 H1. apply Nat.even_spec in Hev. destruct Hev as (p & Hp).
    assert (Ep : (num / 2 = p)%nat) by (rewrite Hp, Nat.mul_comm; apply Nat.div_mul; lia). rewrite Ep in *.
    assert (G : forall k c, (k <= p - 1)%nat -> length c = num -> 
       exists c', fold_left (fun c n => fl_collect F c n (f n) (f' n)) (seq 2 k) (DiagState CX c m0 m1) = DiagState CX c' m0 m1
        /\ length c' = num /\ forall j, (j < num)%nat -> nth j c' k0 = if ((2 <=? j) && (j <? 2 + 2 * k))%nat then mu j else nth j c k0).
    { induction k as [|k IH]; intros c Hkp Hc.
      - exists c. repeat split; auto. intros j Hj. destruct (Nat.leb_spec 2 j), (Nat.ltb_spec j (2 + 2 * 0)); cbn [andb]; auto. lia.
      - destruct (IH c ltac:(lia) Hc) as (c' & E & Hl & Hv). rewrite seq_S, fold_left_app, E. cbn [fold_left].
        unfold fl_collect. cbn [dg_moments dg_m0 dg_m1]. eexists. split; [reflexivity|].
        split; [rewrite !upd_length; auto|]. intros j Hj.
        rewrite !nth_upd by (rewrite ?upd_length; lia). rewrite Hf, Hf' by lia.
        destruct (Nat.eqb_spec (2 * (2 + k - 1) + 1) j) as [<- |N1].
        { destruct (Nat.leb_spec 2 (2 * (2 + k - 1) + 1)), (Nat.ltb_spec (2 * (2 + k - 1) + 1) (2 + 2 * S k)); cbn [andb]; auto; lia. }
        destruct (Nat.eqb_spec (2 * (2 + k - 1)) j) as [<- |N2].
        { destruct (Nat.leb_spec 2 (2 * (2 + k - 1))), (Nat.ltb_spec (2 * (2 + k - 1)) (2 + 2 * S k)); cbn [andb]; auto; lia. }
        rewrite Hv by auto.
        destruct (Nat.leb_spec 2 j), (Nat.ltb_spec j (2 + 2 * k)), (Nat.ltb_spec j (2 + 2 * S k)); cbn [andb]; auto; lia. }
    destruct (G (p - 1)%nat (upd (upd (repeat k0 num) 0 m0) 1 m1) ltac:(lia) ltac:(rewrite !upd_length, repeat_length; auto)) as (c' & E & Hl & Hv).
    rewrite E. cbn [dg_moments]. apply (nth_ext _ _ k0 k0).
    - rewrite map_length, seq_length, Hl. reflexivity.
    - rewrite Hl. intros j Hj. rewrite Hv, nth_map_seq by auto. rewrite !nth_upd by (rewrite ?upd_length, repeat_length; lia).
      destruct j as [|[|j]]; [cbn; exact H0|cbn; exact H1|].
      destruct (Nat.leb_spec 2 (S (S j))), (Nat.ltb_spec (S (S j)) (2 + 2 * (p - 1))); cbn [andb]; try lia. reflexivity.
  Qed.
  (** Moment [n] as computed from what the loop collected. *)
  Definition fl_moment (f2 f3 : nat -> CX) (n : nat) : CX :=
    match n with
    | 0%nat => f_mul F (fl_sq_norm F r0) cx_half
    | 1%nat => fl_dot F r1 r0
    | _ => if Nat.even n then f_mul F (re 2) (f_sub F (f2 (S (n / 2))) (f_mul F (fl_sq_norm F r0) cx_half))
           else f_sub F (f_mul F (re 2) (f3 (S (n / 2)))) (fl_dot F r1 r0)
    end.
  Lemma even_half : forall n, (2 <= n)%nat -> Nat.even (2 * (n - 1)) = true /\ (2 * (n - 1) / 2 = n - 1)%nat /\ Nat.even (2 * (n - 1) + 1) = false /\ ((2 * (n - 1) + 1) / 2 = n - 1)%nat.
  Proof.
    intros n H. repeat split.
    - apply Nat.even_spec. exists (n - 1)%nat. reflexivity.
    - rewrite Nat.mul_comm. apply Nat.div_mul. lia.
    - rewrite Nat.add_1_r, Nat.even_succ, <- Nat.negb_even. apply negb_false_iff. apply Nat.even_spec. exists (n - 1)%nat. reflexivity.
    - rewrite Nat.add_comm, (Nat.mul_comm 2), Nat.div_add by lia. reflexivity.
  Qed.
  Definition pieces : R := (1 + u) ^ (3 * N + 2) - 1.
  Lemma few_slices : (length (sm_data sm) <= N + 1)%nat.
  Proof.
    destruct Hlay as (_ & Hinc & Hlast & _). assert (G : forall k, (k < length (sm_data sm))%nat -> (k <= nth k (sm_data sm) 0)%nat).
    { induction k as [|k IH]; intros H; [lia|]. specialize (IH ltac:(lia)). specialize (Hinc k H). lia. }
    destruct (length (sm_data sm)) as [|n]; [lia|]. specialize (G n ltac:(lia)). replace (S n - 1)%nat with n in Hlast by lia. lia.
  Qed.
  (** The sum over the processed rows is the sum over all of them. *)
  Lemma gathered_whole : forall y x y' x' e w p, gathered CX adds y x e w p -> (p <= length (sm_data sm))%nat -> (e <= N)%nat ->
    (forall i, (i < e)%nat -> y i = y' i /\ x i = x' i) -> (forall i, (e <= i)%nat -> (i < N)%nat -> x' i = k0) ->
    cabs (ksub w (inner CX N y' x')) <= pieces * (nrm N y' * nrm N x').
  Proof.
    intros y x y' x' e w p G Hp He Hs Hz. pose proof (acc_pos _ _ HF) as Hu. pose proof (gathered_error y x e w p G) as E.
    assert (X1 : absolute y x (seq 0 e) = absolute y' x' (seq 0 e)) by (apply absolute_ext; intros i Hi; apply in_seq in Hi; apply Hs; lia).
    assert (X2 : ksum (fun i => kmul (kconj (y i)) (x i)) (seq 0 e) = ksum (fun i => kmul (kconj (y' i)) (x' i)) (seq 0 e)) by (apply ksum_ext; intros i Hi; apply in_seq in Hi; destruct (Hs i ltac:(lia)) as (-> & ->); reflexivity).
    assert (Es : seq 0 N = seq 0 e ++ seq e (N - e)) by (replace N with (e + (N - e))%nat at 1 by lia; rewrite seq_app; reflexivity).
    assert (X3 : inner CX N y' x' = ksum (fun i => kmul (kconj (y' i)) (x' i)) (seq 0 e)).
    { unfold inner. rewrite Es, ksum_app. rewrite (ksum_0 CX _ (seq e (N - e))); [ring|]. intros i Hi. apply in_seq in Hi. rewrite Hz by lia. ring. }
    assert (X4 : absolute y' x' (seq 0 e) <= nrm N y' * nrm N x').
    { eapply Rle_trans; [|apply absolute_cauchy]. rewrite Es, absolute_app. pose proof (absolute_pos y' x' (seq e (N - e))). lra. }
    rewrite X3, <- X2. rewrite X1 in E. eapply Rle_trans; [exact E|]. pose proof (absolute_pos y' x' (seq 0 e)).
    assert ((1 + u) ^ (e + 2 * p) <= (1 + u) ^ (3 * N + 2)) by (apply pow_up; [exact Hu|pose proof few_slices; lia]). pose proof (pow_ge1 u (e + 2 * p) Hu). unfold pieces.
    apply Rmult_le_compat; lra.
  Qed.
  Lemma run_diag_steps : forall num, Nat.even num = true -> (2 <= num)%nat -> (al_inter al = true -> ((num - 2) mod 4 = 0)%nat) -> (al_size al = true -> sm_src sm = sm_dest sm) ->
    exists f2 f3, fl_run_diag F kr sm al num r0 = Ok (map (fl_moment f2 f3) (seq 0 num)) /\
    forall n, (2 <= n)%nat -> (n <= num / 2)%nat ->
      cabs (ksub (f2 n) (inner CX N (t (n - 1)%nat) (t (n - 1)%nat))) <= pieces * (nrm N (t (n - 1)%nat) * nrm N (t (n - 1)%nat))
      /\ cabs (ksub (f3 n) (inner CX N (t n) (t (n - 1)%nat))) <= pieces * (nrm N (t n) * nrm N (t (n - 1)%nat)).
  Proof.
    intros num Hev Hnum H4 Hsd. unfold fl_run_diag. destruct Hk as (Hro & H1 & Hext & _). rewrite H1 by exact Hr0. cbn [obind]. fold r1.
    assert (L : exists f2 f3, (if al_inter al then interleaved_diag CX kr sm (al_size al) _ (fl_collect F) else basic_diag CX kr sm (al_size al) _ (fl_collect F)) num (fl_initial F num r0 r1) r0 r1
      = Ok (fold_left (fun c n => fl_collect F c n (f2 n) (f3 n)) (seq 2 (num / 2 - 1)) (fl_initial F num r0 r1)) /\ forall n, (2 <= n)%nat -> (n <= num / 2)%nat -> good CX N sm cell adds (al_size al) num r0 r1 n (f2 n) (f3 n)).
    { destruct (al_inter al).
      - apply (interleaved_diag_buf CX m N sm in_range_m Hlay cell Hext adds adds_same kr Hro (al_size al) num r0 r1 Hr0 r1_length Hnum (H4 eq_refl)).
      - apply (basic_diag_buf CX m N sm Hlay cell adds kr Hro (al_size al) num r0 r1 Hr0 r1_length Hnum). }
    destruct L as (f2 & f3 & E & Hgood). exists f2, f3. split.
    - rewrite E. unfold omap. cbn [obind]. apply f_equal.
      apply (fl_collect_all f2 f3 (fl_moment f2 f3) num); auto; intros n B1 B2; destruct (even_half n B1) as (E1 & E2 & E3 & E4); unfold fl_moment.
      + rewrite E1, E2. replace (S (n - 1)) with n by lia. destruct (2 * (n - 1))%nat as [|[|k]] eqn:Ek; [lia|lia|reflexivity].
      + rewrite E3, E4. replace (S (n - 1)) with n by lia. destruct (2 * (n - 1) + 1)%nat as [|[|k]] eqn:Ek; [lia|lia|reflexivity].
    - intros n B1 B2. destruct (Hgood n B1 B2) as (p & P1 & P2 & G2 & G3). apply Nat.even_spec in Hev. destruct Hev as (h & Eh).
      assert (Hh : (num / 2 = h)%nat) by (rewrite Eh, Nat.mul_comm; apply Nat.div_mul; lia). rewrite Hh in B2. assert (Hn : (n < num)%nat) by lia.
      destruct (step_max_nat CX m N sm Hlay (al_size al) n num Hn) as (M1 & M2 & M3). set (cnt := count sm (al_size al) n num) in *.
      pose proof (D_le CX m N sm Hlay cnt M2) as DN.
      (* the processed rows hold the right values *)
      assert (Need : forall i, (i < D sm cnt)%nat -> (i < N)%nat /\ (al_size al = true -> (layer sm i <= num - 1 - n + sm_dest sm)%nat)).
      { intros i Hi. split; [lia|]. intros Ho. assert (Hl : (layer sm i < cnt)%nat) by (apply (in_D CX m N sm Hlay i cnt ltac:(lia) M2); exact Hi).
        unfold step_max in M1. rewrite Ho in M1. unfold slice_index in M1. specialize (Hsd Ho). rewrite <- Hsd in *.
        replace (Z.of_nat num - 1 + Z.of_nat (sm_src sm) - Z.of_nat (sm_src sm))%Z with (Z.of_nat num - 1)%Z in M1 by lia. rewrite Z.quot_div_nonneg in M1 by lia.
        set (q := ((Z.of_nat num - 1) / 2)%Z) in *. pose proof (Z.div_mod (Z.of_nat num - 1) 2 ltac:(lia)) as DM. fold q in DM. pose proof (Z.mod_pos_bound (Z.of_nat num - 1) 2 ltac:(lia)) as MB.
        destruct (Z.ltb_spec (Z.of_nat n) q); lia. }
      assert (Same1 : forall i, (i < D sm cnt)%nat -> vec (v num (n - 1)%nat) i = t (n - 1)%nat i).
      { intros i Hi. destruct (Need i Hi) as (Q1 & Q2). apply v_needed; [lia|exact Q1|]. intros Ho. specialize (Q2 Ho). lia. }
      assert (Same2 : forall i, (i < D sm cnt)%nat -> vec (v num n) i = t n i).
      { intros i Hi. destruct (Need i Hi) as (Q1 & Q2). apply v_needed; assumption. }
      (* the others are zero *)
      pose proof t_supported as Hts. assert (Zero : forall i, (D sm cnt <= i)%nat -> (i < N)%nat -> t (n - 1)%nat i = k0).
      { intros i Hi HiN. assert (Hl : (cnt <= layer sm i)%nat). { destruct (Nat.le_gt_cases cnt (layer sm i)); [assumption|]. exfalso. assert (i < D sm cnt)%nat by (apply (in_D CX m N sm Hlay i cnt HiN M2); assumption). lia. }
        pose proof (lay_lt CX m N sm Hlay i HiN) as LL. destruct (al_size al) eqn:Ho.
        - apply (support' CX m N sm in_range_m Hlay cell true r0 r1 Hr0 r1_length t); auto.
          + intros; apply cell_nothing; assumption.
          + specialize (Hsd eq_refl). unfold step_max in M1. destruct (Nat.eq_dec n h) as [Ehn|Ehn].
            * pose proof (slice_index_diag_last sm (proj1 Hlay) (Z.of_nat n) (Z.of_nat num) Hsd ltac:(lia) ltac:(lia)) as SI. unfold last_index in *. lia.
            * pose proof (slice_index_diag sm (proj1 Hlay) (Z.of_nat n) (Z.of_nat num) Hsd ltac:(apply Z.even_spec; exists (Z.of_nat h); lia) ltac:(lia) ltac:(lia)) as SI. unfold last_index in *. lia.
        - exfalso. unfold step_max in M1. unfold last_index in M1. lia. }
      split; eapply gathered_whole; try eassumption; intros i Hi; split; auto.
  Qed.

  (** ** Errors of the moments *)
  Variable S0 : R.
  Hypothesis HS : forall i, (i < N)%nat -> rsum (fun j => cabs (coef m i j)) N <= S0.
  Notation X := (half_of m).
  Hypothesis HX : hermitian N X.
  Hypothesis HB : within N X (-1) 1.
  Hypothesis HN : (0 < N)%nat.
  Notation c := (rate S0 g).
  Notation b := (nrm N (vec r0)).
  Lemma rate_pos : 0 <= c.
  Proof. unfold rate. apply Rmult_le_pos; [exact Hg|]. pose proof (S0_pos m N S0 HS HN). lra. Qed.
  Lemma vectors : forall L, c * (INR L * INR (S L)) <= 1 -> forall n, (n <= L)%nat -> nrm N (fun i => ksub (t n i) (cv CX N X (vec r0) n i)) <= c * (INR n * INR (S n)) * b.
  Proof. destruct Hk as (_ & _ & _ & C1 & C2). apply (vectors_close cell start (vec r0) m N Hm S0 HS HX HB g Hg C1 C2 HN). Qed.
  Lemma units_error : forall num n d, c * (INR (num - 1) * INR num) <= 1 -> (n < num)%nat -> (d < N)%nat ->
    cabs (ksub (halved cx_half n (t n d)) (halved cx_half n (ap CX N (cheb N X n) (vec r0) d))) <= c * (INR n * INR (S n)) * b.
  Proof.
    intros num n d HL Hn Hd. pose proof (vectors (num - 1)) as V. replace (S (num - 1)) with num in V by lia. specialize (V HL n ltac:(lia)).
    eapply Rle_trans; [|exact V]. rewrite <- (cv_cheb CX) by exact Hd. pose proof (cabs_nrm N (fun i => ksub (t n i) (cv CX N X (vec r0) n i)) d Hd) as C. cbn beta in C.
    destruct n as [|n]; cbn [halved]; [|exact C]. replace (ksub (kmul cx_half (t 0%nat d)) (kmul cx_half (cv CX N X (vec r0) 0 d))) with (kmul cx_half (ksub (t 0%nat d) (cv CX N X (vec r0) 0 d))) by ring.
    rewrite cabs_mul. unfold cx_half. rewrite cabs_re, Rabs_pos_eq by lra. pose proof (cabs_pos (ksub (t 0%nat d) (cv CX N X (vec r0) 0 d))). lra.
  Qed.

  Variable L : nat.
  Notation D := (c * (INR L * INR (S L))).
  Hypothesis HD : D <= 1.
  Notation e := pieces.
  Notation eta := (3 * D + 4 * e).
  Notation ct := (cv CX N X (vec r0)).
  Lemma D_pos : 0 <= D. Proof. apply Rmult_le_pos; [apply rate_pos|]. apply Rmult_le_pos; apply pos_INR. Qed.
  Lemma e_pos : 0 <= e. Proof. unfold pieces. pose proof (pow_ge1 u (3 * N + 2) (acc_pos _ _ HF)). lra. Qed.
  Lemma b_pos : 0 <= b. Proof. apply nrm_pos. Qed.
  Lemma close : forall n, (n <= L)%nat -> nrm N (fun i => ksub (t n i) (ct n i)) <= D * b.
  Proof.
    intros n Hn. eapply Rle_trans; [apply (vectors L HD n Hn)|].
    apply Rmult_le_compat_r; [apply b_pos|]. apply Rmult_le_compat_l; [apply rate_pos|]. apply Rmult_le_compat; try apply pos_INR; apply le_INR; lia.
  Qed.
  Lemma t_norm : forall n, nrm N (ct n) <= b. Proof. intros n. apply cheb_nrm; assumption. Qed.
  Lemma rs_norm : forall n, (n <= L)%nat -> nrm N (t n) <= (1 + D) * b.
  Proof. intros n Hn. pose proof (nrm_diff N (t n) (ct n)) as Q. pose proof (t_norm n). pose proof (close n Hn) as C. lra. Qed.
  Lemma inner_close : forall n k, (n <= L)%nat -> (k <= L)%nat -> cabs (ksub (inner CX N (t n) (t k)) (inner CX N (ct n) (ct k))) <= 3 * D * (b * b).
  Proof.
    intros n k Hn Hk'. pose proof (close n Hn) as Cn. pose proof (close k Hk') as Ck. pose proof (t_norm n) as Tn. pose proof (rs_norm k Hk') as Rk. pose proof b_pos as B. pose proof D_pos as D0.
    set (dn := fun i => ksub (t n i) (ct n i)) in *. set (dk := fun i => ksub (t k i) (ct k i)) in *.
    assert (E : ksub (inner CX N (t n) (t k)) (inner CX N (ct n) (ct k)) = kadd (inner CX N dn (t k)) (inner CX N (ct n) dk)).
    { unfold dn, dk. rewrite inner_sub_l, inner_sub_r. ring. }
    rewrite E. eapply Rle_trans; [apply cabs_add|]. pose proof (inner_cauchy N dn (t k)) as I1. pose proof (inner_cauchy N (ct n) dk) as I2.
    assert (nrm N dn * nrm N (t k) <= D * b * ((1 + D) * b)) by (apply Rmult_le_compat; try apply nrm_pos; assumption).
    assert (nrm N (ct n) * nrm N dk <= b * (D * b)) by (apply Rmult_le_compat; try apply nrm_pos; assumption).
    assert (0 <= b * b) by (apply Rmult_le_pos; exact B). assert (D * (1 + D) + D <= 3 * D) by nra.
    apply Rle_trans with ((D * (1 + D) + D) * (b * b)); [lra|]. apply Rmult_le_compat_r; assumption.
  Qed.
  Lemma four : forall x y, nrm N x <= (1 + D) * b -> nrm N y <= (1 + D) * b -> nrm N x * nrm N y <= 4 * (b * b).
  Proof.
    intros x y Hx Hy. pose proof b_pos. pose proof D_pos. apply Rle_trans with (((1 + D) * b) * ((1 + D) * b)); [apply Rmult_le_compat; try apply nrm_pos; assumption|].
    assert ((1 + D) * (1 + D) <= 4) by nra. assert (0 <= b * b) by nra. nra.
  Qed.
  (** A scalar product that was added up in pieces. *)
  Lemma dot_close : forall n k z, (n <= L)%nat -> (k <= L)%nat -> cabs (ksub z (inner CX N (t n) (t k))) <= e * (nrm N (t n) * nrm N (t k)) ->
    cabs (ksub z (inner CX N (ct n) (ct k))) <= eta * (b * b).
  Proof.
    intros n k z Hn Hk' E. pose proof (inner_close n k Hn Hk') as I. pose proof (four _ _ (rs_norm n Hn) (rs_norm k Hk')) as Q. pose proof e_pos as e0.
    replace (ksub z (inner CX N (ct n) (ct k))) with (kadd (ksub z (inner CX N (t n) (t k))) (ksub (inner CX N (t n) (t k)) (inner CX N (ct n) (ct k)))) by ring.
    eapply Rle_trans; [apply cabs_add|]. assert (e * (nrm N (t n) * nrm N (t k)) <= e * (4 * (b * b))) by (apply Rmult_le_compat_l; assumption). lra.
  Qed.
  Definition moment_bound : R := 3 * ((1 + u) * ((1 + u) * (1 + eta)) - 1) * (b * b).
  Lemma t_inner : forall n k, cabs (inner CX N (ct n) (ct k)) <= b * b.
  Proof. intros n k. eapply Rle_trans; [apply inner_cauchy|]. apply Rmult_le_compat; try apply nrm_pos; apply t_norm. Qed.
  Lemma eta_pos : 0 <= eta. Proof. pose proof D_pos. pose proof e_pos. lra. Qed.
  Lemma half_abs : cabs cx_half = / 2. Proof. unfold cx_half. rewrite cabs_re, Rabs_pos_eq; lra. Qed.
  Lemma m0_close : cabs (ksub (f_mul F (fl_sq_norm F r0) cx_half) (kmul (inner CX N (vec r0) (vec r0)) cx_half)) <= e * (b * b * / 2)
    /\ cabs (kmul (inner CX N (vec r0) (vec r0)) cx_half) <= b * b * / 2.
  Proof.
    pose proof (acc_pos _ _ HF) as Hu. pose proof (dot_error N r0 r0 Hr0 Hr0) as E. fold (fl_sq_norm F r0) in E. pose proof (inner_cauchy N (vec r0) (vec r0)) as I.
    assert (M : cabs (kmul (inner CX N (vec r0) (vec r0)) cx_half) <= b * b * / 2) by (rewrite cabs_mul, half_abs; lra). split; [|exact M].
    assert (B2 : 0 <= b * b * / 2) by (pose proof b_pos; nra).
    apply Rle_trans with (((1 + u) ^ S (N + 1) - 1) * (b * b * / 2)); [|unfold pieces; apply Rmult_le_compat_r; [exact B2|]; assert ((1 + u) ^ S (N + 1) <= (1 + u) ^ (3 * N + 2)) by (apply pow_up; [exact Hu|lia]); lra].
    apply (err_compose u (N + 1) _ _ (kmul (fl_sq_norm F r0) cx_half) (b * b * / 2) Hu); [apply (acc_mul _ _ HF)| |exact M].
    replace (ksub (kmul (fl_sq_norm F r0) cx_half) (kmul (inner CX N (vec r0) (vec r0)) cx_half)) with (kmul (ksub (fl_sq_norm F r0) (inner CX N (vec r0) (vec r0))) cx_half) by ring.
    rewrite cabs_mul, half_abs. lra.
  Qed.
  Lemma m1_close : (1 <= L)%nat -> cabs (ksub (fl_dot F r1 r0) (inner CX N (ct 1%nat) (vec r0))) <= eta * (b * b).
  Proof.
    intros HL. pose proof (acc_pos _ _ HF) as Hu. pose proof (dot_error N r1 r0 r1_length Hr0) as E.
    assert (E1 : inner CX N (vec r1) (vec r0) = inner CX N (t 1%nat) (vec r0)) by (unfold inner; apply ksum_ext; intros i Hi; apply in_seq in Hi; rewrite r1_at by lia; reflexivity).
    assert (E2 : nrm N (vec r1) = nrm N (t 1%nat)) by (apply nrm_ext; intros i Hi; apply r1_at; exact Hi). rewrite E1, E2 in E.
    apply (dot_close 1 0 (fl_dot F r1 r0) HL ltac:(lia)). change (t 0%nat) with (vec r0). eapply Rle_trans; [exact E|]. apply Rmult_le_compat_r; [apply Rmult_le_pos; apply nrm_pos|].
    unfold pieces. assert ((1 + u) ^ (N + 1) <= (1 + u) ^ (3 * N + 2)) by (apply pow_up; [exact Hu|lia]). lra.
  Qed.
  Lemma re2 : re 2 = kadd k1 k1. Proof. cbn. unfold re, cx_add. cbn. f_equal; lra. Qed.
  Lemma abs_re2 : cabs (re 2) = 2. Proof. rewrite cabs_re, Rabs_pos_eq; lra. Qed.
  Lemma even_close : forall k a, (k <= L)%nat -> cabs (ksub a (inner CX N (t k) (t k))) <= e * (nrm N (t k) * nrm N (t k)) ->
    cabs (ksub (f_mul F (re 2) (f_sub F a (f_mul F (fl_sq_norm F r0) cx_half)))
               (kmul (kadd k1 k1) (ksub (inner CX N (ct k) (ct k)) (kmul (inner CX N (vec r0) (vec r0)) cx_half)))) <= moment_bound.
  Proof.
    intros k a Hk' Ha. pose proof (acc_pos _ _ HF) as Hu. pose proof (dot_close k k a Hk' Hk' Ha) as C2. destruct m0_close as (C0 & M0). pose proof (t_inner k k) as M2.
    set (a' := inner CX N (ct k) (ct k)) in *. set (z := f_mul F (fl_sq_norm F r0) cx_half) in *. set (z' := kmul (inner CX N (vec r0) (vec r0)) cx_half) in *.
    assert (B2 : 0 <= b * b) by (pose proof b_pos; nra). pose proof D_pos as D0. pose proof e_pos as e0.
    assert (P1 : cabs (ksub (ksub a z) (ksub a' z')) <= ((1 + eta) - 1) * (3 / 2 * (b * b))).
    { replace (ksub (ksub a z) (ksub a' z')) with (ksub (ksub a a') (ksub z z')) by ring. eapply Rle_trans; [apply cabs_sub|].
      assert (e * (b * b * / 2) <= eta * (b * b * / 2)) by (apply Rmult_le_compat_r; lra). lra. }
    assert (Q1 : cabs (ksub a' z') <= 3 / 2 * (b * b)) by (eapply Rle_trans; [apply cabs_sub|]; lra).
    pose proof (err_step u (1 + eta) _ (f_sub F a z) _ _ Hu (acc_sub _ _ HF a z) P1 Q1) as P2.
    rewrite <- re2. unfold moment_bound.
    assert (P3 : cabs (ksub (kmul (re 2) (f_sub F a z)) (kmul (re 2) (ksub a' z'))) <= ((1 + u) * (1 + eta) - 1) * (3 * (b * b))).
    { replace (ksub (kmul (re 2) (f_sub F a z)) (kmul (re 2) (ksub a' z'))) with (kmul (re 2) (ksub (f_sub F a z) (ksub a' z'))) by ring. rewrite cabs_mul, abs_re2. lra. }
    assert (Q3 : cabs (kmul (re 2) (ksub a' z')) <= 3 * (b * b)) by (rewrite cabs_mul, abs_re2; lra).
    pose proof (err_step u _ _ (f_mul F (re 2) (f_sub F a z)) _ _ Hu (acc_mul _ _ HF (re 2) (f_sub F a z)) P3 Q3) as P4. lra.
  Qed.
  Lemma odd_close : forall k a, (S k <= L)%nat -> cabs (ksub a (inner CX N (t (S k)) (t k))) <= e * (nrm N (t (S k)) * nrm N (t k)) ->
    cabs (ksub (f_sub F (f_mul F (re 2) a) (fl_dot F r1 r0))
               (ksub (kmul (kadd k1 k1) (inner CX N (ct (S k)) (ct k))) (inner CX N (ct 1%nat) (vec r0)))) <= moment_bound.
  Proof.
    intros k a Hk' Ha. pose proof (acc_pos _ _ HF) as Hu. pose proof (dot_close (S k) k a Hk' ltac:(lia) Ha) as C3. pose proof (m1_close ltac:(lia)) as C1.
    pose proof (t_inner (S k) k) as M3. pose proof (t_inner 1 0) as M1. change (cv CX N X (vec r0) 0) with (vec r0) in M1. cbn beta in *.
    set (a' := inner CX N (cv CX N X (vec r0) (S k)) (cv CX N X (vec r0) k)) in *. set (z := fl_dot F r1 r0) in *. set (z' := inner CX N (cv CX N X (vec r0) 1) (vec r0)) in *.
    assert (B2 : 0 <= b * b) by (pose proof b_pos; nra). pose proof eta_pos as e0. rewrite <- re2. unfold moment_bound.
    assert (P1 : cabs (ksub (kmul (re 2) a) (kmul (re 2) a')) <= ((1 + eta) - 1) * (2 * (b * b))).
    { replace (ksub (kmul (re 2) a) (kmul (re 2) a')) with (kmul (re 2) (ksub a a')) by ring. rewrite cabs_mul, abs_re2. lra. }
    assert (Q1 : cabs (kmul (re 2) a') <= 2 * (b * b)) by (rewrite cabs_mul, abs_re2; lra).
    pose proof (err_step u (1 + eta) _ (f_mul F (re 2) a) _ _ Hu (acc_mul _ _ HF (re 2) a) P1 Q1) as P2.
    assert (P3 : cabs (ksub (ksub (f_mul F (re 2) a) z) (ksub (kmul (re 2) a') z')) <= ((1 + u) * (1 + eta) - 1) * (3 * (b * b))).
    { replace (ksub (ksub (f_mul F (re 2) a) z) (ksub (kmul (re 2) a') z')) with (ksub (ksub (f_mul F (re 2) a) (kmul (re 2) a')) (ksub z z')) by ring. eapply Rle_trans; [apply cabs_sub|].
      assert (eta * (b * b) <= ((1 + u) * (1 + eta) - 1) * (b * b)) by (apply Rmult_le_compat_r; [exact B2|nra]). lra. }
    assert (Q3 : cabs (ksub (kmul (re 2) a') z') <= 3 * (b * b)) by (eapply Rle_trans; [apply cabs_sub|]; lra).
    pose proof (err_step u _ _ (f_sub F (f_mul F (re 2) a) z) _ _ Hu (acc_sub _ _ HF (f_mul F (re 2) a) z) P3 Q3) as P4. lra.
  Qed.
  Lemma eta_bound : eta * (b * b) <= moment_bound.
  Proof.
    unfold moment_bound. pose proof (acc_pos _ _ HF) as Hu. pose proof eta_pos as e0. assert (B2 : 0 <= b * b) by (pose proof b_pos; nra). apply Rmult_le_compat_r; [exact B2|].
    assert (1 + eta <= (1 + u) * (1 + eta)) by nra. assert ((1 + u) * (1 + eta) <= (1 + u) * ((1 + u) * (1 + eta))) by nra. lra.
  Qed.
  Lemma moment_close : (1 <= L)%nat -> forall f2 f3, (forall n, (2 <= n)%nat -> (n <= L)%nat ->
      cabs (ksub (f2 n) (inner CX N (t (n - 1)%nat) (t (n - 1)%nat))) <= pieces * (nrm N (t (n - 1)%nat) * nrm N (t (n - 1)%nat))
      /\ cabs (ksub (f3 n) (inner CX N (t n) (t (n - 1)%nat))) <= pieces * (nrm N (t n) * nrm N (t (n - 1)%nat))) -> forall n, (n < 2 * L)%nat ->
    cabs (ksub (fl_moment f2 f3 n) (halved cx_half n (braket N (vec r0) (cheb N X n) (vec r0)))) <= moment_bound.
  Proof.
    intros HL f2 f3 Hf n Hn. rewrite <- (inner_cheb CX). pose proof eta_bound as EB. unfold fl_moment. destruct n as [|[|n]].
    - cbn [halved cv]. destruct m0_close as (C & _). rewrite (kmul_comm CX cx_half). eapply Rle_trans; [exact C|]. eapply Rle_trans; [|exact EB].
      pose proof D_pos. pose proof e_pos as e0. assert (B2 : 0 <= b * b) by (pose proof b_pos; nra). nra.
    - cbn [halved]. pose proof (m1_close HL) as C. rewrite <- (cv_self CX N X HX). eapply Rle_trans; [exact C|exact EB].
    - cbn [halved]. set (k := S (S n)) in *. pose proof (Nat.div_mod k 2 ltac:(lia)) as DM. destruct (Nat.even k) eqn:Ev.
      + assert (K : k = (2 * (k / 2))%nat). { apply Nat.even_spec in Ev. destruct Ev as (q & Eq). rewrite Eq at 2. rewrite (Nat.mul_comm 2 q), Nat.div_mul by lia. lia. }
        replace (cv CX N X (vec r0) k) with (cv CX N X (vec r0) (2 * (k / 2))) by (rewrite <- K; reflexivity). rewrite <- (diag_even CX cx_half cx_half_ok N X (vec r0) (k / 2) HX). apply even_close; [lia|]. destruct (Hf (S (k / 2)) ltac:(lia) ltac:(lia)) as (G & _). replace (S (k / 2) - 1)%nat with (k / 2)%nat in G by lia. exact G.
      + assert (K : k = (2 * (k / 2) + 1)%nat). { pose proof (Nat.mod_upper_bound k 2 ltac:(lia)). destruct (k mod 2)%nat as [|[|q]] eqn:Em; [|lia|lia]. exfalso. assert (Nat.even k = true) by (apply Nat.even_spec; exists (k / 2)%nat; lia). congruence. }
        replace (cv CX N X (vec r0) k) with (cv CX N X (vec r0) (2 * (k / 2) + 1)) by (rewrite <- K; reflexivity). rewrite <- (diag_odd CX N X (vec r0) (k / 2) HX). assert (Hk2 : (k < 2 * L)%nat) by exact Hn. apply odd_close; [lia|]. destruct (Hf (S (k / 2)) ltac:(lia) ltac:(lia)) as (_ & G). replace (S (k / 2) - 1)%nat with (k / 2)%nat in G by lia. exact G.
  Qed.
End Moments.
