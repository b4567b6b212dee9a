(* C115: circles of lattice plots, limits of the axes, palettes. *)
From Verif Require Import Base PlotRadius.
From Coq Require Import Reals Lra Lia.
Local Open Scope R_scope.

(** ** What is meant *)
(** A site: a sublattice moved by whole numbers of lattice vectors. *)
Fixpoint moved (p : p3) (vs : list p3) (ns : list Z) : p3 :=
  match vs, ns with
  | v :: vs, n :: ns => moved (P3 (px p + IZR n * px v) (py p + IZR n * py v) (pz p + IZR n * pz v)) vs ns
  | _, _ => p
  end.
Definition is_site (l : lat) (p : p3) : Prop := exists q ns, In q (l_subs l) /\ p = moved q (l_vectors l) ns.
Definition dist (p q : p3) : R := norm (vsub p q).
(** Circles around two sites do not touch. *)
Definition apart (r : R) (p q : p3) : Prop := 2 * r < dist p q.
(** Meant (lattice.py:392-401): with a fraction below one half, no circles overlap. *)
Definition C115_overlap_claim : Prop := forall l f r, 0 <= f < 1 / 2 -> site_radius l f = Ok r ->
  forall p q, is_site l p -> is_site l q -> p <> q -> apart r p q.

(** ** Geometry *)
Lemma norm_pos : forall a, 0 <= norm a.
Proof. intros a. apply sqrt_pos. Qed.
Lemma dist_zero : forall p q, p <> q -> 0 < dist p q.
Proof.
  intros [x y z] [x' y' z'] N. unfold dist, norm, vsub. cbn [px py pz]. apply sqrt_lt_R0.
  pose proof (Rle_0_sqr (x - x')) as A. pose proof (Rle_0_sqr (y - y')) as B. pose proof (Rle_0_sqr (z - z')) as C. unfold Rsqr in *.
  destruct (Rle_lt_dec ((x - x') * (x - x') + (y - y') * (y - y') + (z - z') * (z - z')) 0) as [H|H]; [|exact H]. exfalso. apply N.
  assert (X : (x - x') * (x - x') = 0) by lra. assert (Y : (y - y') * (y - y') = 0) by lra. assert (W : (z - z') * (z - z') = 0) by lra.
  apply Rmult_integral in X, Y, W. f_equal; lra.
Qed.
Lemma dist_sym : forall p q, dist p q = dist q p.
Proof. intros p q. unfold dist, norm, vsub. cbn [px py pz]. f_equal. ring. Qed.
Lemma in_pdist : forall l p q, In p l -> In q l -> p <> q -> In (dist p q) (pdist l).
Proof.
  induction l as [|a l IH]; intros p q Hp Hq N; [destruct Hp|]. cbn [pdist]. apply in_or_app. destruct Hp as [->|Hp], Hq as [->|Hq].
  - contradiction.
  - left. apply (in_map (fun q => norm (vsub p q)) l q Hq).
  - left. rewrite dist_sym. apply (in_map (fun p => norm (vsub q p)) l p Hp).
  - right. apply IH; assumption.
Qed.
Lemma pdist_in : forall l d, In d (pdist l) -> exists p q, In p l /\ In q l /\ d = dist p q.
Proof.
  induction l as [|a l IH]; intros d H; [destruct H|]. cbn [pdist] in H. apply in_app_or in H. destruct H as [H|H].
  - apply in_map_iff in H. destruct H as (q & <- & Hq). exists a, q. cbn. auto.
  - destruct (IH d H) as (p & q & Hp & Hq & E). exists p, q. cbn. auto.
Qed.
Lemma fold_min_le : forall l x, fold_left Rmin l x <= x /\ forall y, In y l -> fold_left Rmin l x <= y.
Proof.
  induction l as [|a l IH]; intros x; cbn [fold_left]; [split; [lra|intros y []]|]. destruct (IH (Rmin x a)) as (A & B). pose proof (Rmin_l x a). pose proof (Rmin_r x a).
  split; [lra|]. intros y [->|H']; [lra|apply B, H'].
Qed.
Lemma fold_min_in : forall l x, fold_left Rmin l x = x \/ In (fold_left Rmin l x) l.
Proof.
  induction l as [|a l IH]; intros x; cbn [fold_left]; [auto|]. destruct (IH (Rmin x a)) as [E|H]; [|right; right; exact H]. rewrite E.
  unfold Rmin. destruct (Rle_dec x a); [auto|right; left; reflexivity].
Qed.
Lemma rmin_spec : forall l d, rmin l = Some d -> In d l /\ forall y, In y l -> d <= y.
Proof.
  intros [|x l] d E; [discriminate|]. injection E as <-. destruct (fold_min_le l x) as (A & B). split.
  - destruct (fold_min_in l x) as [->|H]; [left; reflexivity|right; exact H].
  - intros y [->|H]; [exact A|apply B, H].
Qed.
Lemma in_positive : forall l d, In d (positives l) <-> In d l /\ 0 < d.
Proof. intros l d. unfold positives. rewrite filter_In. destruct (Rlt_dec 0 d); intuition; discriminate. Qed.

(** ** Overlap *)
(** Two different sites of the unit cell have circles which are apart. *)
Theorem C115_cell : forall l f r, 0 <= f < 1 / 2 -> site_radius l f = Ok r -> forall p q, In p (l_subs l) -> In q (l_subs l) -> p <> q -> apart r p q.
Proof.
  intros l f r F E p q Hp Hq N. unfold site_radius in E. destruct (heuristic l) as [r1| |]; try discriminate. cbn [obind] in E. destruct (spacing l) as [s| |] eqn:S; try discriminate. cbn [obind] in E. injection E as <-.
  pose proof (dist_zero p q N) as D. assert (I : In (dist p q) (positives (pdist (l_subs l)))) by (apply in_positive; split; [apply in_pdist; assumption|exact D]).
  unfold spacing in S. destruct (l_subs l) as [|a b] eqn:L; [destruct Hp|]. rewrite <- L in *. destruct (rmin (positives (pdist (l_subs l)))) as [d|] eqn:M.
  2:{ destruct (positives (pdist (l_subs l))); [destruct I|discriminate]. }
  injection S as <-. apply rmin_spec in M. destruct M as (M1 & M2). specialize (M2 _ I). apply in_positive in M1. unfold apart. pose proof (Rmin_r r1 (f * d)). nra.
Qed.
Print Assumptions C115_cell.
(** All circles are apart if no two sites are closer than the closest ones of a cell or, if all sites of a cell
    are at one place, the shortest lattice vector. *)
Theorem C115_overlap_partial : forall l f r, 0 <= f < 1 / 2 -> site_radius l f = Ok r -> (forall v, In v (l_vectors l) -> 0 < norm v) ->
  forall p q, p <> q ->
  (forall p' q', In p' (l_subs l) -> In q' (l_subs l) -> p' <> q' -> exists a b, In a (l_subs l) /\ In b (l_subs l) /\ a <> b /\ dist a b <= dist p q) ->
  ((forall p' q', In p' (l_subs l) -> In q' (l_subs l) -> p' = q') -> exists v, In v (l_vectors l) /\ norm v <= dist p q) -> apart r p q.
Proof.
  intros l f r F E Hv p q N H1 H2. pose proof (C115_cell l f r F E) as C. unfold site_radius in E. destruct (heuristic l) as [r1| |]; try discriminate. cbn [obind] in E. destruct (spacing l) as [s| |] eqn:S; try discriminate. cbn [obind] in E. injection E as <-.
  unfold spacing in S. destruct (l_subs l) as [|a0 b0] eqn:L; [discriminate|]. rewrite <- L in *. destruct (rmin (positives (pdist (l_subs l)))) as [d|] eqn:M.
  - apply rmin_spec in M. destruct M as (M1 & M2). apply in_positive in M1. destruct M1 as (M1 & M3). apply pdist_in in M1. destruct M1 as (p' & q' & Hp & Hq & Ed).
    assert (N' : p' <> q'). { intros ->. unfold dist, norm, vsub in Ed. cbn [px py pz] in Ed. replace (_ + _ + _) with 0 in Ed by ring. rewrite sqrt_0 in Ed. lra. }
    destruct (H1 p' q' Hp Hq N') as (a & b & Ha & Hb & Nab & Hd). specialize (C a b Ha Hb Nab). unfold apart in *. lra.
  - destruct (rmin (map norm (l_vectors l))) as [w|] eqn:W; [|discriminate]. injection S as <-. apply rmin_spec in W. destruct W as (W1 & W2).
    destruct H2 as (v & Iv & Hd).
    { intros p' q' Hp Hq. destruct (Req_EM_T (px p') (px q')) as [X|X]; [destruct (Req_EM_T (py p') (py q')) as [Y|Y]; [destruct (Req_EM_T (pz p') (pz q')) as [Z'|Z']|]|].
      { destruct p', q'. cbn in *. congruence. }
      all: exfalso; assert (N' : p' <> q') by (intros ->; congruence); pose proof (dist_zero _ _ N') as D; pose proof (in_pdist _ _ _ Hp Hq N') as I;
        assert (I' : In (dist p' q') (positives (pdist (l_subs l)))) by (apply in_positive; split; assumption); destruct (positives (pdist (l_subs l))); [destruct I'|discriminate]. }
    pose proof (W2 _ (in_map norm _ _ Iv)) as W3. apply in_map_iff in W1. destruct W1 as (u & Eu & Iu). specialize (Hv u Iu). unfold apart. pose proof (Rmin_r r1 (f * w)). nra.
Qed.
Print Assumptions C115_overlap_partial.
(** A chain with two sites in a cell: the closest neighbours are in different cells. *)
Definition chain : lat := Lat [P3 1 0 0] [P3 0 0 0; P3 (9 / 10) 0 0].
Lemma norm_x : forall x, 0 <= x -> norm (P3 x 0 0) = x.
Proof. intros x H. unfold norm. cbn [px py pz]. replace (x * x + 0 * 0 + 0 * 0) with (Rsqr x) by (unfold Rsqr; ring). apply sqrt_Rsqr, H. Qed.
Example C115_chain : site_radius chain (33 / 100) = Ok (12 / 100) /\ dist (P3 (9 / 10) 0 0) (P3 1 0 0) = 1 / 10.
Proof.
  split.
  - unfold site_radius, heuristic, chain, spacing. cbn [l_vectors l_subs obind pdist map app]. rewrite norm_x by lra.
    replace (norm (vsub (P3 0 0 0) (P3 (9 / 10) 0 0))) with (9 / 10).
    2:{ fold (dist (P3 0 0 0) (P3 (9 / 10) 0 0)). rewrite dist_sym. unfold dist, vsub. cbn [px py pz]. rewrite !Rminus_0_r. rewrite norm_x; lra. }
    unfold positives. cbn [filter]. destruct (Rlt_dec 0 (9 / 10)); [|lra]. cbn [rmin fold_left obind]. rewrite Rmin_left by lra. f_equal. lra.
  - rewrite dist_sym. unfold dist, vsub. cbn [px py pz]. rewrite !Rminus_0_r. replace (1 - 9 / 10) with (1 / 10) by lra. apply norm_x. lra.
Qed.
Theorem C115_overlap_refuted : ~ C115_overlap_claim.
Proof.
  intros H. destruct C115_chain as (A & B). specialize (H chain (33 / 100) (12 / 100) ltac:(lra) A (P3 (9 / 10) 0 0) (P3 1 0 0)). unfold apart in H. rewrite B in H.
  assert (Q : 2 * (12 / 100) < 1 / 10); [|lra]. apply H.
  - exists (P3 (9 / 10) 0 0), []. split; [right; left; reflexivity|reflexivity].
  - exists (P3 0 0 0), [1%Z]. split; [left; reflexivity|]. cbn. f_equal; ring.
  - intros E. injection E as E. lra.
Qed.
Print Assumptions C115_overlap_refuted.

(** Before the limit, circles take a fixed share: 12 % of the length of a chain's vector, 0.35^2 of the area of a cell with one or
    two visible sites and 0.42^2 of any other, 18 % of the mean length of three vectors. *)
Theorem C115_share : forall subs,
  (forall v, heuristic (Lat [v] subs) = Ok (12 / 100 * norm v)) /\
  (forall v1 v2 r, heuristic (Lat [v1; v2] subs) = Ok r -> let n := length (visible (Lat [v1; v2] subs)) in
     0 <= r /\ INR n * (PI * (r * r)) = (if (n <=? 2)%nat then 35 / 100 * (35 / 100) else 42 / 100 * (42 / 100)) * norm (cross v1 v2)) /\
  (forall a b c r, heuristic (Lat [a; b; c] subs) = Ok r -> r = 6 / 100 * (norm a + norm b + norm c)).
Proof.
  intros subs. split; [reflexivity|]. split.
  - intros v1 v2 r H n. unfold heuristic in H. cbn [l_vectors] in H. fold n in H. destruct n as [|m] eqn:E; [discriminate H|].
    assert (P : 0 < INR (S m)) by (apply lt_0_INR; lia). pose proof PI_RGT_0 as PP. pose proof (norm_pos (cross v1 v2)) as NP.
    set (A := norm (cross v1 v2)) in *.
    assert (Q : 0 <= A / INR (S m) / PI) by (apply Rmult_le_pos; [apply Rmult_le_pos; [exact NP|left; now apply Rinv_0_lt_compat]|left; now apply Rinv_0_lt_compat]).
    pose proof (sqrt_pos (A / INR (S m) / PI)) as SP. pose proof (sqrt_sqrt _ Q) as SS.
    assert (T : INR (S m) * (PI * (A / INR (S m) / PI)) = A) by (field; split; lra).
    rewrite <- SS in T.
    assert (B : (2 mod S m =? 0)%nat = (S m <=? 2)%nat) by (destruct m as [|[|m]]; [reflexivity|reflexivity|]; rewrite Nat.mod_small by lia; reflexivity).
    rewrite B in H. set (t := sqrt (A / INR (S m) / PI)) in *.
    destruct (S m <=? 2)%nat; injection H as <-; (split; [apply Rmult_le_pos; [lra|exact SP]|]); rewrite <- T; ring.
  - intros a b c r H. unfold heuristic in H. cbn [l_vectors map fold_right] in H. injection H as <-. lra.
Qed.
Print Assumptions C115_share.
Example C115_share_example : heuristic (Lat [P3 3 0 0; P3 2 0 0; P3 1 0 0] []) = Ok (36 / 100).
Proof. unfold heuristic. cbn [l_vectors map fold_right]. rewrite !norm_x by lra. f_equal. lra. Qed.

(** ** What is seen from above *)
Definition column (p q : p3) : Prop := px p = px q /\ py p = py q.
Lemma same_xy_iff : forall p q, same_xy p q = true <-> column p q.
Proof. intros p q. unfold same_xy, column. destruct (Req_EM_T (px p) (px q)), (Req_EM_T (py p) (py q)); intuition; discriminate. Qed.
Lemma insert_z_in : forall p l q, In q (insert_z p l) <-> q = p \/ In q l.
Proof. intros p l q. induction l as [|a l IH]; cbn [insert_z]; [cbn; intuition|]. destruct (Rlt_dec (pz p) (pz a)); cbn [In]; [rewrite IH|]; intuition. Qed.
Inductive falling : list p3 -> Prop := falling_nil : falling [] | falling_cons p l : (forall q, In q l -> pz q <= pz p) -> falling l -> falling (p :: l).
Lemma insert_falling : forall p l, falling l -> falling (insert_z p l).
Proof.
  intros p l H. induction H as [|a l Ha Hl IH]; cbn [insert_z]; [constructor; [intros q []|constructor]|]. destruct (Rlt_dec (pz p) (pz a)) as [L|L].
  - constructor; [|exact IH]. intros q Hq. apply insert_z_in in Hq. destruct Hq as [->|Hq]; [lra|apply Ha, Hq].
  - constructor; [|constructor; assumption]. intros q [<-|Hq]; [lra|]. specialize (Ha q Hq). lra.
Qed.
Lemma by_height_in : forall l q, In q (by_height l) <-> In q l.
Proof. induction l as [|a l IH]; intros q; cbn; [tauto|]. unfold by_height in *. rewrite insert_z_in, IH. intuition. Qed.
Lemma by_height_falling : forall l, falling (by_height l).
Proof. induction l as [|a l IH]; cbn; [constructor|apply insert_falling, IH]. Qed.
Lemma see_spec : forall l seen, falling l ->
  (forall p, In p (see seen l) -> In p l /\ (forall q, In q seen -> ~ column p q) /\ (forall q, In q l -> column q p -> pz q <= pz p)) /\
  (forall p, In p l -> (exists q, In q seen /\ column p q) \/ exists q, In q (see seen l) /\ column p q) /\
  (forall i j p q, nth_error (see seen l) i = Some p -> nth_error (see seen l) j = Some q -> column p q -> i = j).
Proof.
  induction l as [|a l IH]; intros seen F.
  - split; [intros p []|split; [intros p []|intros i j p q H; destruct i; discriminate]].
  - inversion F as [|? ? Ha Fl]; subst. cbn [see]. destruct (existsb (same_xy a) seen) eqn:E.
    + apply existsb_exists in E. destruct E as (s & Hs & Es). apply same_xy_iff in Es. destruct (IH seen Fl) as (I1 & I2 & I3). split; [|split; [|exact I3]].
      * intros p Hp. destruct (I1 p Hp) as (J1 & J2 & J3). split; [right; exact J1|]. split; [exact J2|]. intros q [<-|Hq] C; [|apply J3; assumption]. exfalso. apply (J2 s Hs). unfold column in *. intuition congruence.
      * intros p [<-|Hp]; [left; exists s; auto|apply I2, Hp].
    + destruct (IH (a :: seen) Fl) as (I1 & I2 & I3).
      assert (N : forall q, In q seen -> ~ column a q).
      { intros q Hq C. apply same_xy_iff in C. assert (X : existsb (same_xy a) seen = true) by (apply existsb_exists; exists q; auto). congruence. }
      split; [|split].
      * intros p [<-|Hp].
        { split; [left; reflexivity|]. split; [exact N|]. intros q [<-|Hq] _; [lra|apply Ha, Hq]. }
        destruct (I1 p Hp) as (J1 & J2 & J3). split; [right; exact J1|]. split; [intros q Hq; apply J2; right; exact Hq|]. intros q [<-|Hq] C; [|apply J3; assumption].
        exfalso. apply (J2 a (or_introl eq_refl)). unfold column in *. intuition congruence.
      * intros p [<-|Hp]; [right; exists a; split; [left; reflexivity|split; reflexivity]|]. destruct (I2 p Hp) as [(q & [<-|Hq] & C)|(q & Hq & C)].
        { right. exists a. split; [left; reflexivity|exact C]. } { left. exists q. auto. } { right. exists q. split; [right; exact Hq|exact C]. }
      * intros [|i] [|j] p q Hi Hj C; cbn [nth_error] in *; [reflexivity| | |f_equal; eapply I3; eassumption].
        { injection Hi as <-. apply nth_error_In in Hj. destruct (I1 q Hj) as (_ & J & _). exfalso. apply (J a (or_introl eq_refl)). unfold column in *. intuition congruence. }
        { injection Hj as <-. apply nth_error_In in Hi. destruct (I1 p Hi) as (_ & J & _). exfalso. apply (J a (or_introl eq_refl)). exact C. }
Qed.
(** From each column of sublattices exactly one is visible, a highest one. *)
Theorem C115_visible : forall l,
  (forall p, In p (visible l) -> In p (l_subs l) /\ forall q, In q (l_subs l) -> column q p -> pz q <= pz p) /\
  (forall p, In p (l_subs l) -> exists i q, nth_error (visible l) i = Some q /\ column p q /\ forall j q', nth_error (visible l) j = Some q' -> column p q' -> j = i).
Proof.
  intros l. destruct (see_spec (by_height (l_subs l)) [] (by_height_falling _)) as (A & B & C). split.
  - intros p Hp. destruct (A p Hp) as (H1 & _ & H3). split; [apply by_height_in, H1|]. intros q Hq. apply H3, by_height_in, Hq.
  - intros p Hp. apply by_height_in in Hp. destruct (B p Hp) as [(q & [] & _)|(q & Hq & Cq)]. apply In_nth_error in Hq. destruct Hq as (i & Hi). exists i, q. split; [exact Hi|]. split; [exact Cq|].
    intros j q' Hj Cj. eapply C; [exact Hj|exact Hi|]. unfold column in *. intuition congruence.
Qed.
Print Assumptions C115_visible.

(** ** Limits *)
Definition len (a : limits) : R := Rabs (snd a - fst a).
Definition center (a : limits) : R := (fst a + snd a) / 2.
(** Everything that was shown still is. *)
Definition shows (a a' : limits) : Prop := Rmin (fst a') (snd a') <= Rmin (fst a) (snd a) /\ Rmax (fst a) (snd a) <= Rmax (fst a') (snd a').
(** Same direction. *)
Definition keeps_direction (a a' : limits) : Prop := snd a < fst a -> snd a' < fst a'.
Ltac ra := unfold len, center, shows, keeps_direction, Rmin, Rmax, Rabs in *; cbn [fst snd] in *; repeat match goal with
  | |- context [Rle_dec ?a ?b] => destruct (Rle_dec a b) | |- context [Rcase_abs ?a] => destruct (Rcase_abs a) | H : context [Rcase_abs ?a] |- _ => destruct (Rcase_abs a)
  | H : context [Rle_dec ?a ?b] |- _ => destruct (Rle_dec a b) end; try lra.
Theorem C115_length : forall n a, let a' := min_length n a in n <= len a' /\ shows a a' /\ center a' = center a /\ (len a' = n \/ a' = a).
Proof.
  intros n [lo hi] a'. unfold a', min_length. destruct (Rlt_dec (Rabs (hi - lo)) n) as [L|L]; cbn [fst snd].
  - repeat split; ra.
  - repeat split; try (right; reflexivity); ra.
Qed.
Print Assumptions C115_length.
Theorem C115_margin : forall m a, 0 <= m -> let a' := margin m a in len a' = (1 + m) * len a /\ shows a a' /\ center a' = center a.
Proof.
  intros m a Hm a'. unfold a', margin. destruct (C115_length (Rabs (snd a - fst a) * (1 + m)) a) as (A & B & C & D). split; [|split; assumption].
  destruct D as [->|E]; [unfold len; ring|]. rewrite E in *. unfold len in *. pose proof (Rabs_pos (snd a - fst a)). nra.
Qed.
Print Assumptions C115_margin.
(** Axes which are not inverted: with a ratio up to one both ratios hold after the call and nothing is hidden. *)
Definition C115_ratio_claim : Prop := forall ratio xa ya, 0 < ratio <= 1 -> let (xa', ya') := min_ratio ratio xa ya in
  ratio * len ya' <= len xa' /\ ratio * len xa' <= len ya' /\ shows xa xa' /\ shows ya ya'.
Lemma div_lt : forall a b c, 0 < b -> (a / b < c <-> a < c * b).
Proof. intros a b c Hb. unfold Rdiv. pose proof (Rinv_0_lt_compat b Hb) as I. split; intros H. - apply (Rmult_lt_compat_r b) in H; [|lra]. rewrite Rmult_assoc, Rinv_l, Rmult_1_r in H by lra. exact H.
  - apply (Rmult_lt_compat_r (/ b)) in H; [|lra]. rewrite Rmult_assoc, Rinv_r, Rmult_1_r in H by lra. exact H. Qed.
Lemma shows_ord : forall a b c d, a <= b -> c <= a -> b <= d -> shows (a, b) (c, d).
Proof. intros a b c d H1 H2 H3. unfold shows. cbn [fst snd]. rewrite !Rmin_left, !Rmax_right by lra. lra. Qed.
Ltac parts := repeat match goal with |- _ /\ _ => split end; unfold center; try (apply shows_ord); cbn [fst snd]; try lra; try nra.
Theorem C115_ratio_partial : forall ratio xa ya, 0 < ratio <= 1 -> fst xa <= snd xa -> fst ya <= snd ya -> let (xa', ya') := min_ratio ratio xa ya in
  ratio * len ya' <= len xa' /\ ratio * len xa' <= len ya' /\ shows xa xa' /\ shows ya ya' /\ center xa' = center xa /\ center ya' = center ya /\ fst xa' <= snd xa' /\ fst ya' <= snd ya'.
Proof.
  intros r [x0 x1] [y0 y1] R Hx Hy. cbn [fst snd] in Hx, Hy. unfold min_ratio. cbn [fst snd]. set (x := (x1 - x0) / 2). set (y := (y1 - y0) / 2).
  assert (Ex : x1 = x0 + 2 * x) by (unfold x; lra). assert (Ey : y1 = y0 + 2 * y) by (unfold y; lra). clearbody x y. subst x1 y1. assert (Px : 0 <= x) by lra. assert (Py : 0 <= y) by lra.
  assert (Lx : len (x0, x0 + 2 * x) = 2 * x) by (unfold len; cbn [fst snd]; rewrite Rabs_pos_eq; lra). assert (Ly : len (y0, y0 + 2 * y) = 2 * y) by (unfold len; cbn [fst snd]; rewrite Rabs_pos_eq; lra).
  destruct (Req_EM_T y 0) as [Y|Y].
  - subst y. destruct (Req_EM_T x 0) as [X|X].
    + subst x. cbn [fst snd]. rewrite Lx, Ly. parts.
    + replace (0 / x) with 0 by (unfold Rdiv; ring). destruct (Rlt_dec 0 r); [|lra]. cbn [fst snd]. rewrite Lx.
      assert (B : 0 < r * x) by nra. assert (L' : len ((y0 + 2 * 0 + y0) / 2 - r * x, (y0 + 2 * 0 + y0) / 2 + r * x) = 2 * (r * x)) by (unfold len; cbn [fst snd]; rewrite Rabs_pos_eq; lra).
      rewrite L'. parts.
  - assert (Qy : 0 < y) by lra. destruct (Rlt_dec (x / y) r) as [L|L].
    + apply div_lt in L; [|exact Qy]. cbn [fst snd]. rewrite Ly. assert (B : 0 < r * y) by nra.
      assert (L' : len ((x0 + 2 * x + x0) / 2 - r * y, (x0 + 2 * x + x0) / 2 + r * y) = 2 * (r * y)) by (unfold len; cbn [fst snd]; rewrite Rabs_pos_eq; lra).
      rewrite L'. parts.
    + assert (L2 : ~ x < r * y) by (intros G; apply L, div_lt; assumption). destruct (Req_EM_T x 0) as [X|X]; [exfalso; subst x; nra|]. assert (Qx : 0 < x) by lra.
      destruct (Rlt_dec (y / x) r) as [M|M].
      * apply div_lt in M; [|exact Qx]. cbn [fst snd]. rewrite Lx. assert (B : 0 < r * x) by nra.
        assert (L' : len ((y0 + 2 * y + y0) / 2 - r * x, (y0 + 2 * y + y0) / 2 + r * x) = 2 * (r * x)) by (unfold len; cbn [fst snd]; rewrite Rabs_pos_eq; lra).
        rewrite L'. parts.
      * assert (M2 : ~ y < r * x) by (intros G; apply M, div_lt; assumption). cbn [fst snd]. rewrite Lx, Ly. parts.
Qed.
Print Assumptions C115_ratio_partial.
(** An inverted long axis is cut. *)
Example C115_ratio_example : min_ratio (4 / 10) (10, -10) (-1, 1) = ((- (4 / 10), 4 / 10), (-1, 1)).
Proof.
  unfold min_ratio. cbn [fst snd]. destruct (Req_EM_T ((1 - -1) / 2) 0); [lra|]. destruct (Rlt_dec ((-10 - 10) / 2 / ((1 - -1) / 2)) (4 / 10)) as [H|H]; [f_equal; f_equal; lra|]. exfalso. apply H. lra.
Qed.
Theorem C115_ratio_refuted : ~ C115_ratio_claim.
Proof. intros H. specialize (H (4 / 10) (10, -10) (-1, 1) ltac:(lra)). rewrite C115_ratio_example in H. destruct H as (_ & _ & (H & _) & _). ra. Qed.
Print Assumptions C115_ratio_refuted.
(** Meant: an inverted axis stays inverted.  Refuted: it is turned around. *)
Definition C115_direction_claim : Prop := forall n a, keeps_direction a (min_length n a).
Theorem C115_direction_refuted : ~ C115_direction_claim.
Proof. intros H. specialize (H 4 (1, 0)). unfold keeps_direction, min_length in H. destruct (Rlt_dec (Rabs (0 - 1)) 4) as [L|L]; cbn [fst snd] in H; [lra|]. apply L. ra. Qed.
Print Assumptions C115_direction_refuted.
Theorem C115_direction_partial : forall n a, (n <= len a -> min_length n a = a) /\ (fst a <= snd a -> fst (min_length n a) <= snd (min_length n a)).
Proof. intros n [lo hi]. unfold min_length, len. cbn [fst snd]. split; intros H; destruct (Rlt_dec (Rabs (hi - lo)) n); cbn [fst snd]; try lra; try reflexivity. pose proof (Rabs_pos (hi - lo)). lra. Qed.
Print Assumptions C115_direction_partial.
Lemma shows_len : forall a b, shows a b -> len a <= len b.
Proof.
  assert (G : forall a, len a = Rmax (fst a) (snd a) - Rmin (fst a) (snd a)).
  { intros [a b]. unfold len. cbn [fst snd]. destruct (Rle_lt_dec a b) as [H|H]; [rewrite Rmax_right, Rmin_left, Rabs_pos_eq by lra|rewrite Rmax_left, Rmin_right, Rabs_left by lra]; lra. }
  intros a b (S1 & S2). rewrite !G. lra.
Qed.
(** The limits of a structure plot: at least half a nanometre and 0.4 of the other axis, with margins; nothing is hidden. *)
Theorem C115_structure : forall xa ya, fst xa <= snd xa -> fst ya <= snd ya -> let (xa', ya') := decorate xa ya in
  shows xa xa' /\ shows ya ya' /\ center xa' = center xa /\ center ya' = center ya /\ 54 / 100 <= len xa' /\ 54 / 100 <= len ya' /\ 4 / 10 * len ya' <= len xa' /\ 4 / 10 * len xa' <= len ya'.
Proof.
  intros xa ya Hx Hy. unfold decorate. destruct (C115_length (1 / 2) xa) as (A1 & A2 & A3 & _). destruct (C115_length (1 / 2) ya) as (B1 & B2 & B3 & _).
  pose proof (proj2 (C115_direction_partial (1 / 2) xa) Hx) as A4. pose proof (proj2 (C115_direction_partial (1 / 2) ya) Hy) as B4. cbv zeta in *.
  set (x1 := min_length (1 / 2) xa) in *. set (y1 := min_length (1 / 2) ya) in *. pose proof (C115_ratio_partial (4 / 10) x1 y1 ltac:(lra) A4 B4) as R. destruct (min_ratio (4 / 10) x1 y1) as [x2 y2].
  destruct R as (R1 & R2 & R3 & R4 & R5 & R6 & _). destruct (C115_margin (8 / 100) x2 ltac:(lra)) as (M1 & M2 & M3). destruct (C115_margin (8 / 100) y2 ltac:(lra)) as (N1 & N2 & N3). cbv zeta in *.
  assert (T : forall a b c, shows a b -> shows b c -> shows a c) by (unfold shows; intros; lra).
  pose proof shows_len as W.
  pose proof (W _ _ R3). pose proof (W _ _ R4).
  split; [eapply T; [exact A2|]; eapply T; [exact R3|exact M2]|]. split; [eapply T; [exact B2|]; eapply T; [exact R4|exact N2]|]. split; [congruence|]. split; [congruence|]. rewrite M1, N1. lra.
Qed.
Print Assumptions C115_structure.

(** ** Palettes *)
(** Meant: colour number [start] of the palette and those after it, from the beginning again after the last. *)
Definition C115_palette_claim : Prop := forall C (colors : list C) num start res, colors <> [] -> get_palette colors num start = Ok res ->
  forall k, (k < num)%nat -> nth_error res k = nth_error colors ((start + k) mod length colors).
Theorem C115_palette_total : forall C (colors : list C) num start, exists res, get_palette colors num start = Ok res /\ (colors <> [] -> length res = num) /\
  forall k, (k < num)%nat -> nth_error res k = nth_error colors ((start + k) mod Nat.min num (length colors)).
Proof.
  intros C colors num start. unfold get_palette. set (pal := firstn (Nat.min num (length colors)) colors).
  assert (Lp : length pal = Nat.min num (length colors)) by (unfold pal; rewrite firstn_length; lia).
  destruct (Nat.eqb_spec (length pal) 0) as [Z0|Z0].
  { exists []. split; [reflexivity|]. assert (D : num = 0%nat \/ colors = []) by (destruct num; [auto|destruct colors; [auto|cbn in *; lia]]). split.
    - intros N. destruct D; [subst; reflexivity|contradiction].
    - intros k Hk. destruct D as [->| ->]; [lia|]. destruct k; destruct ((start + _) mod _); reflexivity. }
  assert (G : forall n s, exists res, (fix go (ks : list nat) : outcome (list C) := match ks with [] => Ok [] | k :: ks => obind (aget pal (k mod length pal)) (fun c => omap (cons c) (go ks)) end) (seq s n) = Ok res /\
     length res = n /\ forall k, (k < n)%nat -> nth_error res k = nth_error pal ((s + k) mod length pal)).
  { induction n as [|n IH]; intros s; cbn [seq]; [exists []; split; [reflexivity|split; [reflexivity|intros; lia]]|]. destruct (IH (S s)) as (res & E & L & H).
    assert (B : (s mod length pal < length pal)%nat) by (apply Nat.mod_upper_bound; exact Z0). unfold aget at 1. destruct (nth_error pal (s mod length pal)) as [c|] eqn:Ec; [|apply nth_error_None in Ec; lia].
    cbn [obind]. rewrite E. cbn [omap]. exists (c :: res). split; [reflexivity|]. split; [cbn; lia|]. intros [|k] Hk; cbn [nth_error]; [rewrite Nat.add_0_r; congruence|]. rewrite H by lia. f_equal. f_equal. lia. }
  destruct (G num start) as (res & E & L & H). exists res. split; [exact E|]. split; [intros _; exact L|]. intros k Hk. rewrite H by exact Hk. rewrite Lp. unfold pal.
  assert (B : ((start + k) mod Nat.min num (length colors) < Nat.min num (length colors))%nat) by (apply Nat.mod_upper_bound; lia).
  transitivity (nth_error (firstn (Nat.min num (length colors)) colors ++ skipn (Nat.min num (length colors)) colors) ((start + k) mod Nat.min num (length colors))); [|rewrite firstn_skipn; reflexivity].
  rewrite nth_error_app1; [reflexivity|]. fold pal. lia.
Qed.
Print Assumptions C115_palette_total.
Theorem C115_palette_partial : forall C (colors : list C) num start res, (length colors <= num \/ start = 0)%nat -> get_palette colors num start = Ok res ->
  forall k, (k < num)%nat -> nth_error res k = nth_error colors ((start + k) mod length colors).
Proof.
  intros C colors num start res D E k Hk. destruct (C115_palette_total C colors num start) as (res' & E' & _ & H). rewrite E in E'. injection E' as <-. rewrite H by exact Hk.
  destruct (Nat.le_ge_cases (length colors) num) as [L|L]; [rewrite Nat.min_r by exact L; reflexivity|]. rewrite Nat.min_l by exact L. destruct D as [D|D]; [replace num with (length colors) by lia; reflexivity|]. subst start. cbn.
  rewrite !Nat.mod_small by lia. reflexivity.
Qed.
Print Assumptions C115_palette_partial.
Example C115_palette_example : get_palette [1; 2; 3; 4; 5; 6; 7; 8; 9]%nat 3 3 = Ok [1; 2; 3]%nat.
Proof. reflexivity. Qed.
Theorem C115_palette_refuted : ~ C115_palette_claim.
Proof. intros H. specialize (H nat [1; 2; 3; 4; 5; 6; 7; 8; 9]%nat 3%nat 3%nat _ ltac:(discriminate) C115_palette_example 0%nat ltac:(lia)). discriminate H. Qed.
Print Assumptions C115_palette_refuted.
