(* Lemmas about modifiers and queries on a built system. *)
From Verif Require Import Base Rle RleProofs Blocks BlocksProofs TablesSpec TablesProofs Scalar Foundation Lattice LatticeProofs Hamiltonian SystemMods ModsSpec ModsProofs.
From Coq Require Import QArith Permutation.
Local Open Scope nat_scope.

Lemma iter_inside : forall d sys ham b, In b (iter_from d sys ham) -> In (it_e b) d /\ sys <= it_sys b /\ it_sys b + e_num (it_e b) <= sys + rle_size d.
Proof.
  induction d as [|e d IH]; intros sys ham b H; [destruct H|]. cbn [iter_from] in H. rewrite rle_size_cons. destruct H as [<-|H].
  - cbn [it_sys it_e]. split; [left; auto|lia].
  - destruct (IH _ _ _ H) as (A & B & C). split; [right; auto|lia].
Qed.

Lemma iter_apart : forall d sys ham, ForallOrdPairs (fun x y => it_sys x + e_num (it_e x) <= it_sys y \/ it_sys y + e_num (it_e y) <= it_sys x) (iter_from d sys ham).
Proof.
  induction d as [|e d IH]; intros sys ham; cbn [iter_from]; constructor; auto. apply Forall_forall. intros y Hy.
  apply iter_inside in Hy. cbn [it_sys it_e]. lia.
Qed.

Lemma iter_label : forall d sys ham b k, In b (iter_from d sys ham) -> k < e_num (it_e b) ->
  nth_error (labels d) (it_sys b + k - sys) = Some (e_id (it_e b), e_norb (it_e b)).
Proof.
  induction d as [|e d IH]; intros sys ham b k H Hk; [destruct H|]. cbn [iter_from] in H. rewrite labels_cons. destruct H as [<-|H].
  - cbn [it_sys it_e] in *. replace (sys + k - sys) with k by lia. rewrite nth_error_app1 by (rewrite repeat_length; auto).
    rewrite (nth_error_nth' _ (0, 0)) by (rewrite repeat_length; auto). rewrite nth_repeat_lt by auto. reflexivity.
  - pose proof (iter_inside _ _ _ _ H) as (_ & A & _). rewrite nth_error_app2 by (rewrite repeat_length; lia). rewrite repeat_length.
    rewrite <- (IH _ _ _ k H Hk). f_equal. lia.
Qed.

Lemma iter_cover : forall d sys ham n, sys <= n < sys + rle_size d -> exists b k, In b (iter_from d sys ham) /\ k < e_num (it_e b) /\ n = it_sys b + k.
Proof.
  induction d as [|e d IH]; intros sys ham n H; [unfold rle_size in H; cbn in H; lia|]. rewrite rle_size_cons in H. cbn [iter_from].
  destruct (Nat.lt_ge_cases n (sys + e_num e)).
  - exists (It e sys ham), (n - sys). split; [left; auto|]. cbn. lia.
  - destruct (IH (sys + e_num e) (ham + e_num e * e_norb e) n ltac:(lia)) as (b & k & B1 & B2 & B3). exists b, k. split; [right; auto|auto].
Qed.

Section Sys.
  Variable R : scalar.
  Variable P : Type.
  Variable reg hreg : list (name * mat R).
  Variable s : sysdata P P.
  Hypothesis Hsize : rle_size (sd_subs s) = length (sd_pos s).
  Hypothesis Hids : forall e, In e (sd_subs s) -> e_id e < length reg.

  Lemma reg_name_ok : forall e, In e (sd_subs s) ->
    reg_name reg (e_id e) = Ok (fst (nth (e_id e) reg (Blank, Mat 0 0 (fun _ _ => k0)))).
  Proof.
    intros e He. unfold reg_name, reg_get. rewrite (nth_error_nth' reg (Blank, Mat 0 0 (fun _ _ => k0))) by auto. reflexivity.
  Qed.

  Definition nm_of (b : it) : name := fst (nth (e_id (it_e b)) reg (Blank, Mat 0 0 (fun _ _ => k0))).

  Lemma nm_site : forall b k, In b (Rle.iter (sd_subs s)) -> k < e_num (it_e b) -> site_name reg (sd_subs s) (it_sys b + k) = nm_of b.
  Proof.
    intros b k Hb Hk. unfold site_name, nm_of. change (site_list (sd_subs s)) with (labels (sd_subs s)).
    pose proof (iter_label _ _ _ _ k Hb Hk) as Q. rewrite Nat.sub_0_r in Q. rewrite (nth_error_nth _ _ _ Q). reflexivity.
  Qed.

  Lemma seg_in : forall {A} (x : list A) b, length x = length (sd_pos s) -> In b (Rle.iter (sd_subs s)) -> it_sys b + e_num (it_e b) <= length x.
  Proof. intros A x b L H. apply iter_inside in H. lia. Qed.

  Definition old_flag (n : nat) : bool := match sd_valid s with [] => true | v => nth n v false end.

  Lemma system_states : forall f k g, state_follows f g -> (k <= 0)%Z -> sd_valid s = [] \/ length (sd_valid s) = length (sd_pos s) ->
    exists v, apply_system reg hreg s (SiteState f k) = Ok (with_valid s v) /\ length v = length (sd_pos s) /\
      forall n p, nth_error (sd_pos s) n = Some p -> nth n v false = g (site_name reg (sd_subs s) n) p (old_flag n).
  Proof.
    intros f k g HF Hk HV. cbn [apply_system].
    set (v0 := match sd_valid s with [] => repeat true (length (sd_pos s)) | v => v end).
    assert (L0 : length v0 = length (sd_pos s)) by (unfold v0; destruct (sd_valid s); [apply repeat_length|destruct HV; [discriminate|auto]]).
    assert (N0 : forall n, n < length (sd_pos s) -> nth_error v0 n = Some (old_flag n)).
    { intros n Hn. rewrite (nth_error_nth' v0 false) by lia. f_equal. unfold v0, old_flag. destruct (sd_valid s); [apply nth_repeat_lt; auto|auto]. }
    pose (out := fun b => map (fun pv => g (nm_of b) (fst pv) (snd pv))
            (combine (firstn (e_num (it_e b)) (skipn (it_sys b) (sd_pos s))) (firstn (e_num (it_e b)) (skipn (it_sys b) v0)))).
    destruct (segments_loop (fun v b => obind (segment (sd_pos s) (it_sys b) (e_num (it_e b))) (fun ps =>
               obind (reg_name reg (e_id (it_e b))) (fun nm => on_segment (fun x => f x ps nm) v (it_sys b) (e_num (it_e b)))))
               it_sys (fun b => e_num (it_e b)) (fun b x => f x (firstn (e_num (it_e b)) (skipn (it_sys b) (sd_pos s))) (nm_of b))
               out (length (sd_pos s)) (Rle.iter (sd_subs s))) with (l := v0) as (v & E & L & A & _); auto.
    - intros b Hb. eapply seg_in; eauto.
    - apply iter_apart.
    - intros x b Hb Lx. unfold segment. pose proof (seg_in (sd_pos s) b eq_refl Hb).
      destruct (Nat.leb_spec (it_sys b + e_num (it_e b)) (length (sd_pos s))); [|lia]. cbn [obind].
      rewrite reg_name_ok by (eapply iter_inside; eauto). reflexivity.
    - intros b Hb. pose proof (seg_in (sd_pos s) b eq_refl Hb). unfold out. split.
      + apply HF. rewrite !seg_length; auto. lia.
      + rewrite map_length, combine_length, !seg_length; lia.
    - exists v. rewrite E. cbn [obind]. destruct (Z.ltb_spec 0 k); [lia|]. split; [reflexivity|]. split; [exact L|].
      intros n p Hp. assert (Hn : n < length (sd_pos s)) by (apply nth_error_Some; congruence).
      destruct (iter_cover (sd_subs s) 0 0 n ltac:(lia)) as (b & j & B1 & B2 & ->). rewrite nm_site by auto.
      apply nth_error_nth. rewrite A by auto. unfold out. rewrite nth_error_map, nth_error_combine, !nth_error_seg by auto.
      rewrite Hp, N0 by auto. reflexivity.
  Qed.

  Lemma system_positions : forall f g, pos_follows f g ->
    exists ps, apply_system reg hreg s (PositionMod f) = Ok (with_pos s ps) /\ length ps = length (sd_pos s) /\
      forall n p, nth_error (sd_pos s) n = Some p -> nth_error ps n = Some (g (site_name reg (sd_subs s) n) p).
  Proof.
    intros f g HF. cbn [apply_system].
    pose (out := fun b => map (g (nm_of b)) (firstn (e_num (it_e b)) (skipn (it_sys b) (sd_pos s)))).
    destruct (segments_loop (fun p b => obind (reg_name reg (e_id (it_e b))) (fun nm =>
           on_segment (fun ps => f ps nm) p (it_sys b) (e_num (it_e b))))
               it_sys (fun b => e_num (it_e b)) (fun b x => f x (nm_of b))
               out (length (sd_pos s)) (Rle.iter (sd_subs s))) with (l := sd_pos s) as (v & E & L & A & _); auto.
    - intros b Hb. eapply seg_in; eauto.
    - apply iter_apart.
    - intros x b Hb Lx. rewrite reg_name_ok by (eapply iter_inside; eauto). reflexivity.
    - intros b Hb. pose proof (seg_in (sd_pos s) b eq_refl Hb). unfold out. split; [apply HF|]. rewrite map_length, seg_length; lia.
    - exists v. rewrite E. cbn [omap obind]. split; [reflexivity|]. split; [exact L|].
      intros n p Hp. assert (Hn : n < length (sd_pos s)) by (apply nth_error_Some; congruence).
      destruct (iter_cover (sd_subs s) 0 0 n ltac:(lia)) as (b & j & B1 & B2 & ->). rewrite nm_site by auto.
      rewrite A by auto. unfold out. rewrite nth_error_map, nth_error_seg by auto. rewrite Hp. reflexivity.
  Qed.
End Sys.

(* ------------------------------------------------------------------ find_nearest *)
Lemma reg_id_some : forall {R} (reg : list (name * mat R)) n id, reg_id reg n = Ok id ->
  exists e, nth_error reg id = Some (n, e) /\ forall k x, k < id -> nth_error reg k = Some x -> fst x <> n.
Proof.
  induction reg as [|x reg IH]; intros n id E; [discriminate|]. cbn [reg_id] in E. destruct (name_eqb_spec (fst x) n) as [H|H].
  - injection E as <-. exists (snd x). destruct x; cbn in *; subst. split; auto. intros k y Hk. lia.
  - destruct (reg_id reg n) as [j| |] eqn:Ej; cbn in E; try discriminate. injection E as <-.
    destruct (IH n j Ej) as (e & E1 & E2). exists e. split; auto. intros [|k] y Hk Ey; cbn in Ey; [congruence|]. apply (E2 k); auto. lia.
Qed.
Lemma reg_id_none : forall {R} (reg : list (name * mat R)) n, reg_id reg n = Throw <-> ~ In n (map fst reg).
Proof.
  induction reg as [|x reg IH]; intros n; cbn [reg_id map In]; [tauto|]. destruct (name_eqb_spec (fst x) n) as [H|H].
  - split; [discriminate|tauto].
  - split.
    + intros E [X|X]; [tauto|]. revert X. apply IH. destruct (reg_id reg n); cbn in E; [discriminate|reflexivity|discriminate].
    + intros E. assert (X : reg_id reg n = Throw) by (apply IH; tauto). rewrite X. reflexivity.
Qed.
Lemma reg_id_not_ub : forall {R} (reg : list (name * mat R)) n, reg_id reg n <> UB.
Proof. induction reg as [|x reg IH]; intros n; cbn [reg_id]; [discriminate|]. destruct (name_eqb (fst x) n); [discriminate|]. specialize (IH n). destruct (reg_id reg n); cbn; congruence. Qed.
Lemma reg_id_in : forall {R} (reg : list (name * mat R)) n, In n (map fst reg) -> exists id, reg_id reg n = Ok id.
Proof. intros R reg n H. pose proof (reg_id_none reg n). pose proof (reg_id_not_ub reg n). destruct (reg_id reg n); [eauto|tauto|tauto]. Qed.

Lemma nearest_scan : forall {P} (dist : P -> Q) (pos : list P) c k b0, k + c <= length pos ->
  (fst b0 < k) -> (exists p, nth_error pos (fst b0) = Some p /\ snd b0 = dist p) ->
  exists b, ofold (fun best i => obind (aget pos i) (fun p =>
       Ok (if negb (Qle_bool (snd best) (dist p)) then (i, dist p) else best))) (seq k c) b0 = Ok b /\
    (fst b < k + c) /\ (fst b = fst b0 \/ k <= fst b) /\ (exists p, nth_error pos (fst b) = Some p /\ snd b = dist p) /\ (snd b <= snd b0)%Q /\
    (k <= fst b -> ~ (snd b0 <= snd b)%Q) /\
    forall i p, k <= i < k + c -> nth_error pos i = Some p -> (snd b <= dist p)%Q /\ (i < fst b -> ~ (dist p <= snd b)%Q).
Proof.
  intros P dist pos c. induction c as [|c IH]; intros k b0 L Hk E.
  - exists b0. cbn [seq ofold]. split; [reflexivity|]. split; [lia|]. split; [auto|]. split; [exact E|]. split; [apply Qle_refl|].
    split; [intros; lia|]. intros i p H. lia.
  - cbn [seq ofold]. destruct (nth_error pos k) as [p|] eqn:Ep; [|apply nth_error_None in Ep; lia].
    unfold aget at 1. rewrite Ep. cbn [obind].
    set (b1 := if negb (Qle_bool (snd b0) (dist p)) then (k, dist p) else b0).
    assert (F1 : fst b1 < S k) by (unfold b1; destruct (negb _); cbn [fst]; lia).
    assert (F2 : exists p, nth_error pos (fst b1) = Some p /\ snd b1 = dist p) by (unfold b1; destruct (negb _); cbn [fst snd]; eauto).
    destruct (IH (S k) b1 ltac:(lia) F1 F2) as (b & E1 & G1 & G2 & G3 & G4 & G5 & G6). exists b.
    assert (B1 : (snd b1 <= snd b0)%Q /\ (snd b1 <= dist p)%Q /\ (fst b1 = fst b0 \/ (fst b1 = k /\ ~ (snd b0 <= snd b1)%Q))).
    { unfold b1. destruct (Qle_bool (snd b0) (dist p)) eqn:EQ; cbn [negb fst snd].
      - apply Qle_bool_iff in EQ. repeat split; auto. apply Qle_refl.
      - assert (NQ : ~ (snd b0 <= dist p)%Q) by (intros H; apply Qle_bool_iff in H; congruence).
        repeat split; auto; [apply Qlt_le_weak, Qnot_le_lt; auto|apply Qle_refl]. }
    destruct B1 as (B1 & B2 & B3).
    split; [exact E1|]. split; [lia|]. split; [lia|]. split; [exact G3|]. split; [eapply Qle_trans; eauto|]. split.
    + intros H1 H2. destruct (Nat.lt_ge_cases k (fst b)) as [X|X].
      * apply (G5 X). eapply Qle_trans; [exact B1|exact H2].
      * destruct B3 as [B3|[B3 B4]]; [lia|]. apply B4. eapply Qle_trans; [exact H2|]. exact G4.
    + intros i q Hi Eq. destruct (Nat.eq_dec i k) as [->|NE].
      * rewrite Ep in Eq. injection Eq as <-. split; [eapply Qle_trans; eauto|]. intros H1 H2. apply (G5 ltac:(lia)). eapply Qle_trans; eauto.
      * apply G6; auto. lia.
Qed.

Lemma find_first : forall {A} (f : A -> bool) l x, find f l = Some x -> exists l1 l2, l = l1 ++ x :: l2 /\ f x = true /\ forall y, In y l1 -> f y = false.
Proof.
  induction l as [|y l IH]; intros x E; [discriminate|]. cbn in E. destruct (f y) eqn:F.
  - injection E as ->. exists [], l. repeat split; auto. intros y [].
  - destruct (IH x E) as (l1 & l2 & -> & F2 & F3). exists (y :: l1), l2. repeat split; auto. intros z [->|Hz]; auto.
Qed.
