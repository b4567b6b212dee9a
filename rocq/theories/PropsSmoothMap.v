(* C123: smoothing and clipping of data on sites *)
From Verif Require Import Base SmoothMap.
From Coq Require Import Reals Lra Lia List.
Local Open Scope R_scope.

(* ------------------------------------------------ specification *)
Definition distance (p q : R * R) : R := sqrt ((fst p - fst q) ^ 2 + (snd p - snd q) ^ 2).
Definition site (sites : list (R * R)) (i : nat) : R * R := nth i sites (0, 0).
(** Average with weights: [d] from [m] *)
Definition average (n : nat) (w d : nat -> R) (v : R) : Prop :=
  0 < total (map w (seq 0 n)) /\ v * total (map w (seq 0 n)) = total (map (fun j => d j * w j) (seq 0 n)).
(** A Gauss function of the distance, cut off at [sigma] *)
Definition gauss (sigma : R) (sites : list (R * R)) (i j : nat) : R :=
  let d := distance (site sites i) (site sites j) in if Rlt_dec d sigma then exp (- (d ^ 2 / (2 * sigma ^ 2))) else 0.
(** All sites on one ray from the origin *)
Definition on_ray (sites : list (R * R)) : Prop :=
  exists u, fst u ^ 2 + snd u ^ 2 = 1 /\ forall p, In p sites -> exists t, 0 <= t /\ p = (t * fst u, t * snd u).

(* ------------------------------------------------ lemmas *)
Lemma total_cons : forall x l, total (x :: l) = x + total l.
Proof. reflexivity. Qed.
Lemma total_filter : forall (b : nat -> bool) f l, total (map f (filter b l)) = total (map (fun j => if b j then f j else 0) l).
Proof. intros b f l. induction l as [|x r IH]; [reflexivity|]. cbn [filter map]. destruct (b x); cbn [map]; rewrite ?total_cons, IH; lra. Qed.
Lemma total_ext : forall (f g : nat -> R) l, (forall j, In j l -> f j = g j) -> total (map f l) = total (map g l).
Proof. intros f g l H. f_equal. apply map_ext_in. exact H. Qed.
Lemma total_le : forall (f g : nat -> R) l, (forall j, In j l -> f j <= g j) -> total (map f l) <= total (map g l).
Proof.
  intros f g l. induction l as [|x r IH]; intros H; cbn [map]; [lra|]. rewrite !total_cons.
  apply Rplus_le_compat; [apply H; left; reflexivity|apply IH; intros j J; apply H; right; exact J].
Qed.
Lemma total_scal : forall a (f : nat -> R) l, total (map (fun j => a * f j) l) = a * total (map f l).
Proof. intros a f l. induction l as [|x r IH]; cbn [map]; [cbn; lra|]. rewrite !total_cons, IH. lra. Qed.
Lemma total_pos : forall (f : nat -> R) l i, (forall j, In j l -> 0 <= f j) -> In i l -> 0 < f i -> 0 < total (map f l).
Proof.
  intros f l i H I P. induction l as [|x r IH]; [destruct I|]. cbn [map]. rewrite total_cons.
  assert (Hr : 0 <= total (map f r)).
  { pose proof (total_le (fun j => 0 * f j) f r) as L. rewrite total_scal, Rmult_0_l in L. apply L. intros j J. rewrite Rmult_0_l. apply H. right. exact J. }
  destruct I as [->|I]; [lra|]. pose proof (H x (or_introl eq_refl)). assert (0 < total (map f r)) by (apply IH; [intros j J; apply H; right; exact J|exact I]). lra.
Qed.
Definition shell (sigma : R) (sites : list (R * R)) (i j : nat) : R :=
  let ri := radius (site sites i) in let rj := radius (site sites j) in if close sigma ri rj then weight sigma ri rj else 0.
Lemma radius_nth : forall sites i, nth i (map radius sites) 0 = radius (site sites i).
Proof.
  intros sites i. unfold site. replace 0 with (radius (0, 0)) at 1; [apply map_nth|]. unfold radius. cbn. rewrite !Rmult_0_l, Rplus_0_l. apply sqrt_0.
Qed.
Lemma shell_nonneg : forall sigma sites i j, 0 <= shell sigma sites i j.
Proof. intros. unfold shell. destruct (close _ _ _); [left; apply exp_pos|lra]. Qed.
Lemma shell_self : forall sigma sites i, 0 < sigma -> shell sigma sites i i = 1.
Proof.
  intros sigma sites i H. unfold shell, close. rewrite Rminus_eq_0, Rabs_R0. destruct (Rlt_dec 0 sigma); [|contradiction].
  unfold weight. rewrite Rminus_eq_0. unfold Rdiv. rewrite Rmult_0_l. cbn. rewrite !Rmult_0_l, Rmult_0_r. apply exp_0.
Qed.
Lemma smooth_shell : forall sigma sites data i, 0 < sigma -> (i < length sites)%nat ->
  exists v, smooth_at floats sigma (map radius sites) data i = Some v /\ average (length sites) (shell sigma sites i) (fun j => nth j data 0) v.
Proof.
  intros sigma sites data i S I. unfold smooth_at, floats. rewrite map_length, !total_filter.
  set (N := total (map (fun j => if close sigma (nth i (map radius sites) 0) (nth j (map radius sites) 0) then weight sigma (nth i (map radius sites) 0) (nth j (map radius sites) 0) else 0) (seq 0 (length sites)))).
  assert (EN : N = total (map (shell sigma sites i) (seq 0 (length sites)))).
  { apply total_ext. intros j _. rewrite !radius_nth. reflexivity. }
  assert (PN : 0 < N).
  { rewrite EN. apply total_pos with i; [intros j _; apply shell_nonneg|apply in_seq; lia|rewrite shell_self by exact S; lra]. }
  destruct (Req_EM_T N 0) as [Z|Z]; [lra|]. eexists. split; [reflexivity|]. split; [rewrite <- EN; exact PN|]. rewrite <- EN.
  transitivity (total (map (fun j => nth j data 0 * shell sigma sites i j) (seq 0 (length sites)))); [|reflexivity].
  unfold Rdiv. rewrite Rmult_assoc, Rinv_l, Rmult_1_r by lra. apply total_ext. intros j _. rewrite !radius_nth. unfold shell. destruct (close _ _ _); lra.
Qed.
Lemma average_unique : forall n w d v v', average n w d v -> average n w d v' -> v = v'.
Proof. intros n w d v v' [P E] [_ E']. apply Rmult_eq_reg_r with (total (map w (seq 0 n))); [congruence|lra]. Qed.
Lemma average_ext : forall n w w' d d' v, (forall j, (j < n)%nat -> w j = w' j) -> (forall j, (j < n)%nat -> w j <> 0 -> d j = d' j) -> average n w d v -> average n w' d' v.
Proof.
  intros n w w' d d' v Hw Hd [P E].
  assert (E1 : total (map w (seq 0 n)) = total (map w' (seq 0 n))) by (apply total_ext; intros j J; apply in_seq in J; apply Hw; lia).
  unfold average. rewrite <- E1. split; [exact P|]. rewrite E. apply total_ext. intros j J. apply in_seq in J. rewrite <- (Hw j) by lia.
  destruct (Req_dec (w j) 0) as [Z|Z]; [rewrite Z; lra|]. rewrite (Hd j) by (try lia; exact Z). reflexivity.
Qed.

(* ------------------------------------------------ theorems *)
(** Smoothed data are Gauss averages over the surroundings of each site. *)
Definition C123_claim : Prop := forall sigma sites data, 0 < sigma -> length data = length sites ->
  exists out, convolve floats sigma sites data = Ok (map Some out) /\ length out = length data /\
    forall i, (i < length data)%nat -> average (length data) (gauss sigma sites i) (fun j => nth j data 0) (nth i out 0).

(** What is computed: averages over rings around the origin *)
Theorem C123_rings : forall sigma sites data, 0 < sigma -> length data = length sites ->
  exists out, convolve floats sigma sites data = Ok (map Some out) /\ length out = length data /\
    forall i, (i < length data)%nat -> average (length data) (shell sigma sites i) (fun j => nth j data 0) (nth i out 0).
Proof.
  intros sigma sites data S L.
  assert (K : forall n, (n <= length sites)%nat -> exists out, map (smooth_at floats sigma (map radius sites) data) (seq 0 n) = map Some out /\ length out = n /\
            forall i, (i < n)%nat -> average (length sites) (shell sigma sites i) (fun j => nth j data 0) (nth i out 0)).
  { induction n as [|n IH]; intros H; [exists []; repeat split; intros; lia|]. destruct IH as (out & E & Lo & A); [lia|].
    destruct (smooth_shell sigma sites data n S) as (v & Ev & Av); [lia|]. exists (out ++ [v]).
    rewrite seq_S, !map_app, E. cbn [map Nat.add]. rewrite Ev. split; [reflexivity|]. rewrite app_length, Lo. split; [cbn; lia|].
    intros i Hi. destruct (Nat.eq_dec i n) as [->|N]; [rewrite app_nth2 by lia; rewrite Lo, Nat.sub_diag; exact Av|]. rewrite app_nth1 by lia. apply A. lia. }
  destruct (K (length sites) (le_n _)) as (out & E & Lo & A). exists out. rewrite L. split; [|split; [exact Lo|exact A]].
  unfold convolve. rewrite L, Nat.eqb_refl, E. destruct data; [|reflexivity]. destruct sites; [|discriminate]. destruct out; [reflexivity|discriminate].
Qed.

(** The average is between the smallest and the largest of the values that enter it; nothing else does. *)
Theorem C123_between : forall sigma sites data out, 0 < sigma -> length data = length sites -> convolve floats sigma sites data = Ok (map Some out) ->
  forall i lo hi, (i < length data)%nat ->
  (forall j, (j < length data)%nat -> Rabs (radius (site sites j) - radius (site sites i)) < sigma -> lo <= nth j data 0 <= hi) ->
  lo <= nth i out 0 <= hi.
Proof.
  intros sigma sites data out S L E i lo hi I H. destruct (C123_rings sigma sites data S L) as (out' & E' & _ & A).
  rewrite E in E'. assert (out = out').
  { injection E' as E'. clear - E'. revert out' E'. induction out as [|x r IH]; intros [|y t] E; try discriminate; [reflexivity|]. cbn in E. injection E as -> E. f_equal. apply IH, E. }
  subst out'. destruct (A i I) as [P Q]. set (w := shell sigma sites i) in *.
  assert (B : forall j, In j (seq 0 (length data)) -> lo * w j <= nth j data 0 * w j <= hi * w j).
  { intros j J. apply in_seq in J. unfold w, shell, close. destruct (Rlt_dec _ _) as [C|C]; [|lra].
    destruct (H j ltac:(lia) C) as [H1 H2]. split; (apply Rmult_le_compat_r; [left; apply exp_pos|assumption]). }
  pose proof (total_le (fun j => lo * w j) (fun j => nth j data 0 * w j) _ (fun j J => proj1 (B j J))) as B1.
  pose proof (total_le (fun j => nth j data 0 * w j) (fun j => hi * w j) _ (fun j J => proj2 (B j J))) as B2.
  rewrite total_scal in B1, B2. rewrite <- Q in B1, B2. split; eapply Rmult_le_reg_r; eassumption.
Qed.

Lemma ray_radius : forall u t, fst u ^ 2 + snd u ^ 2 = 1 -> 0 <= t -> radius (t * fst u, t * snd u) = t.
Proof.
  intros u t U T. unfold radius. cbn [fst snd].
  replace ((t * fst u) ^ 2 + (t * snd u) ^ 2) with (t ^ 2); [apply sqrt_pow2, T|]. transitivity (t ^ 2 * (fst u ^ 2 + snd u ^ 2)); [rewrite U|]; ring.
Qed.
Lemma ray_distance : forall u t t', fst u ^ 2 + snd u ^ 2 = 1 -> distance (t * fst u, t * snd u) (t' * fst u, t' * snd u) = Rabs (t - t').
Proof.
  intros u t t' U. unfold distance. cbn [fst snd]. rewrite <- sqrt_Rsqr_abs. f_equal. unfold Rsqr.
  transitivity ((t - t') * (t - t') * (fst u ^ 2 + snd u ^ 2)); [ring|rewrite U; ring].
Qed.
Lemma ray_shell : forall sigma sites i j, 0 < sigma -> on_ray sites -> (i < length sites)%nat -> (j < length sites)%nat ->
  shell sigma sites i j = gauss sigma sites i j.
Proof.
  intros sigma sites i j S (u & U & H) I J. unfold shell, gauss, close. destruct (H (site sites i) (nth_In _ _ I)) as (t & T & ->).
  destruct (H (site sites j) (nth_In _ _ J)) as (t' & T' & ->). rewrite ray_distance, !ray_radius by assumption.
  rewrite Rabs_minus_sym. destruct (Rlt_dec _ _); [|reflexivity]. unfold weight. f_equal. rewrite pow2_abs. field. lra.
Qed.
Theorem C123_partial : forall sigma sites data, on_ray sites -> 0 < sigma -> length data = length sites ->
  exists out, convolve floats sigma sites data = Ok (map Some out) /\ length out = length data /\
    forall i, (i < length data)%nat -> average (length data) (gauss sigma sites i) (fun j => nth j data 0) (nth i out 0).
Proof.
  intros sigma sites data Y S L. destruct (C123_rings sigma sites data S L) as (out & E & Lo & A). exists out. split; [exact E|]. split; [exact Lo|].
  intros i I. eapply average_ext; [| |apply A, I]; [|reflexivity]. intros j J. apply ray_shell; try assumption; lia.
Qed.

(** Opposite sites are mixed however far they are from each other. *)
Theorem C123_refuted : ~ C123_claim.
Proof.
  intros H. destruct (H 1 [(5, 0); (-5, 0)] [0; 1] ltac:(lra) eq_refl) as (out & E & _ & A).
  assert (R5 : radius (5, 0) = 5) by (unfold radius; cbn [fst snd]; replace (5 ^ 2 + 0 ^ 2) with (5 ^ 2) by ring; apply sqrt_pow2; lra).
  assert (R5' : radius (-5, 0) = 5) by (unfold radius; cbn [fst snd]; replace ((-5) ^ 2 + 0 ^ 2) with (5 ^ 2) by ring; apply sqrt_pow2; lra).
  destruct (C123_rings 1 [(5, 0); (-5, 0)] [0; 1] ltac:(lra) eq_refl) as (out' & E' & _ & A').
  rewrite E in E'. assert (X : nth 0 out 0 = nth 0 out' 0).
  { injection E' as E'. destruct out, out'; try discriminate. cbn in E'. injection E' as -> _. reflexivity. }
  destruct (A 0%nat ltac:(cbn; lia)) as [_ B]. destruct (A' 0%nat ltac:(cbn; lia)) as [_ B']. rewrite X in B. cbn [length seq map] in B, B'. rewrite !total_cons in B, B'.
  assert (S0 : shell 1 [(5, 0); (-5, 0)] 0 0 = 1) by (apply shell_self; lra).
  assert (S1 : shell 1 [(5, 0); (-5, 0)] 0 1 = 1).
  { transitivity (shell 1 [(5, 0); (-5, 0)] 0 0); [|exact S0]. unfold shell, site. cbn [nth]. rewrite R5, R5'. reflexivity. }
  assert (G0 : gauss 1 [(5, 0); (-5, 0)] 0 0 = 1).
  { unfold gauss, distance, site. cbn [nth fst snd]. replace ((5 - 5) ^ 2 + (0 - 0) ^ 2) with 0 by ring. rewrite sqrt_0.
    destruct (Rlt_dec 0 1); [|lra]. replace (- (0 ^ 2 / (2 * 1 ^ 2))) with 0 by field. apply exp_0. }
  assert (G1 : gauss 1 [(5, 0); (-5, 0)] 0 1 = 0).
  { unfold gauss, distance, site. cbn [nth fst snd]. replace ((5 - -5) ^ 2 + (0 - 0) ^ 2) with (10 ^ 2) by ring. rewrite sqrt_pow2 by lra.
    destruct (Rlt_dec 10 1); [lra|reflexivity]. }
  rewrite S0, S1 in B'. rewrite G0, G1 in B. cbn in B, B'. lra.
Qed.

(** Integers: the same number everywhere does not stay *)
Theorem C123_integers_refuted : ~ (forall sigma sites data x, 0 < sigma -> length data = length sites -> (forall d, In d data -> d = x) -> x = trunc x ->
  convolve trunc sigma sites data = Ok (map Some data)).
Proof.
  intros H. set (sites := [(0, 0); (1, 0)]).
  assert (Tr : forall x, 0 <= x < 1 -> trunc x = 0).
  { intros x X. unfold trunc. destruct (Rle_dec 0 x); [|lra]. destruct (base_Int_part x) as [P Q]. apply IZR_eq.
    assert (Int_part x < 1)%Z by (apply lt_IZR; lra). assert (-1 < Int_part x)%Z by (apply lt_IZR; cbn; lra). lia. }
  assert (T1 : forall x, 1 <= x < 2 -> trunc x = 1).
  { intros x X. unfold trunc. destruct (Rle_dec 0 x); [|lra]. destruct (base_Int_part x) as [P Q]. apply IZR_eq.
    assert (Int_part x < 2)%Z by (apply lt_IZR; lra). assert (0 < Int_part x)%Z by (apply lt_IZR; cbn; lra). lia. }
  specialize (H 2 sites [1; 1] 1 ltac:(lra) eq_refl). assert (A : forall d, In d [1; 1] -> d = 1) by (intros d [<-|[<-|[]]]; reflexivity).
  specialize (H A ltac:(symmetry; apply T1; lra)). unfold convolve in H. cbn [length Nat.eqb sites map seq] in H. injection H as H _.
  assert (R0 : radius (0, 0) = 0) by (unfold radius; cbn [fst snd]; replace (0 ^ 2 + 0 ^ 2) with 0 by ring; apply sqrt_0).
  assert (R1 : radius (1, 0) = 1) by (unfold radius; cbn [fst snd]; replace (1 ^ 2 + 0 ^ 2) with (1 ^ 2) by ring; apply sqrt_pow2; lra).
  rewrite R0, R1 in H. unfold smooth_at in H. cbn [nth length seq filter] in H.
  assert (C0 : close 2 0 0 = true) by (unfold close; rewrite Rminus_eq_0, Rabs_R0; destruct (Rlt_dec 0 2); [reflexivity|lra]).
  assert (C1 : close 2 0 1 = true) by (unfold close; rewrite Rabs_pos_eq by lra; destruct (Rlt_dec (1 - 0) 2); [reflexivity|lra]).
  rewrite C0, C1 in H. cbn [map nth] in H. rewrite !total_cons in H. change (total []) with 0 in H.
  assert (W0 : weight 2 0 0 = 1) by (unfold weight; replace (- (1 / 2) * ((0 - 0) / 2) ^ 2) with 0 by field; apply exp_0).
  assert (W1 : 0 < weight 2 0 1 < 1).
  { unfold weight. split; [apply exp_pos|]. pose proof (exp_increasing (- (1 / 2) * ((0 - 1) / 2) ^ 2) 0 ltac:(lra)) as X. rewrite exp_0 in X. exact X. }
  rewrite W0 in H. set (e := weight 2 0 1) in *. rewrite (T1 (1 * 1 + (1 * e + 0))) in H by lra.
  destruct (Req_EM_T _ 0) as [Z|Z]; [lra|]. injection H as H. rewrite Tr in H; [lra|]. split.
  - apply Rmult_le_pos; [lra|]. left. apply Rinv_0_lt_compat. lra.
  - apply Rmult_lt_reg_r with (1 + (e + 0)); [lra|]. unfold Rdiv. rewrite Rmult_assoc, Rinv_l by lra. lra.
Qed.

(** No width: nothing is a number *)
Theorem C123_no_width : forall store sigma sites data, sigma <= 0 -> length data = length sites -> convolve store sigma sites data = Ok (map (fun _ => None) data).
Proof.
  intros store sigma sites data S L. unfold convolve. rewrite <- L, Nat.eqb_refl.
  assert (K : map (smooth_at store sigma (map radius sites) data) (seq 0 (length data)) = map (fun _ => None) data).
  { transitivity (map (fun _ : nat => @None R) (seq 0 (length data))).
    - apply map_ext. intros i. unfold smooth_at.
      assert (F : forall l, filter (fun j => close sigma (nth i (map radius sites) 0) (nth j (map radius sites) 0)) l = []).
      { induction l as [|x r IH]; [reflexivity|]. cbn [filter]. unfold close at 1. destruct (Rlt_dec _ _) as [C|_]; [|exact IH]. pose proof (Rabs_pos (nth x (map radius sites) 0 - nth i (map radius sites) 0)). lra. }
      rewrite F. cbn [map]. change (total []) with 0. destruct (Req_EM_T 0 0); [reflexivity|lra].
    - clear. induction data as [|x r IH]; [reflexivity|]. cbn [length seq map]. rewrite <- seq_shift, map_map, IH. reflexivity. }
  rewrite K. destruct data; reflexivity.
Qed.

(** Data of another length are an error. *)
Theorem C123_lengths : forall store sigma sites data, length data <> length sites ->
  convolve store sigma sites data = match data with [] => Ok [] | _ => Throw end.
Proof. intros store sigma sites data H. unfold convolve. destruct (Nat.eqb_spec (length data) (length sites)); [contradiction|]. reflexivity. Qed.

(** Clipping *)
Theorem C123_clipped : forall v_min v_max data, length (clipped v_min v_max data) = length data /\
  (v_min <= v_max -> forall i, (i < length data)%nat -> let d := nth i data 0 in let c := nth i (clipped v_min v_max data) 0 in
     v_min <= c <= v_max /\ (v_min <= d <= v_max -> c = d) /\ (d < v_min -> c = v_min) /\ (v_max < d -> c = v_max)) /\
  clipped v_min v_max (clipped v_min v_max data) = clipped v_min v_max data /\
  (v_max < v_min -> clipped v_min v_max data = repeat v_max (length data)).
Proof.
  intros v_min v_max data. unfold clipped. split; [apply map_length|]. split; [|split].
  - intros H i I. cbv zeta. set (f := fun d => Rmin (Rmax d v_min) v_max).
    replace (nth i (map f data) 0) with (f (nth i data 0)) by (rewrite <- (map_nth f); apply nth_indep; rewrite map_length; exact I). unfold f.
    unfold Rmin, Rmax. repeat destruct (Rle_dec _ _); lra.
  - rewrite map_map. apply map_ext. intros d. unfold Rmin, Rmax. repeat destruct (Rle_dec _ _); lra.
  - intros H. induction data as [|x r IH]; [reflexivity|]. cbn. rewrite IH. f_equal. unfold Rmin, Rmax. repeat destruct (Rle_dec _ _); lra.
Qed.

Example C123_example : exists out, convolve floats 1 [(5, 0); (-5, 0)] [0; 1] = Ok (map Some out) /\ nth 0 out 0 = 1 / 2.
Proof.
  destruct (C123_rings 1 [(5, 0); (-5, 0)] [0; 1] ltac:(lra) eq_refl) as (out & E & _ & A). exists out. split; [exact E|].
  destruct (A 0%nat ltac:(cbn; lia)) as [_ B]. cbn [length seq map] in B. rewrite !total_cons in B.
  assert (R5 : radius (5, 0) = radius (-5, 0)) by (unfold radius; cbn [fst snd]; f_equal; ring).
  assert (S0 : shell 1 [(5, 0); (-5, 0)] 0 0 = 1) by (apply shell_self; lra).
  assert (S1 : shell 1 [(5, 0); (-5, 0)] 0 1 = 1) by (transitivity (shell 1 [(5, 0); (-5, 0)] 0 0); [|exact S0]; unfold shell, site; cbn [nth]; rewrite R5; reflexivity).
  rewrite S0, S1 in B. cbn in B. lra.
Qed.
