(* Lemmas about structure modifiers. *)
From Verif Require Import Base Rle RleProofs Blocks TablesSpec Scalar Foundation FoundationSpec FoundationFacts Lattice LatticeSpec
  LatticeProofs UnitCellProofs PopulateFacts Hamiltonian SystemMods ModsSpec.
From Coq Require Import Permutation.
Local Open Scope nat_scope.

Lemma nth_error_skip : forall {A} s (l : list A) k, nth_error (skipn s l) k = nth_error l (s + k).
Proof. induction s as [|s IH]; intros [|x l] k; cbn; auto. destruct k; reflexivity. Qed.

Lemma nth_error_seg : forall {A} (l : list A) s n k, k < n -> nth_error (firstn n (skipn s l)) k = nth_error l (s + k).
Proof.
  intros A l s n k Hk. assert (G : forall (m : list A) n k, k < n -> nth_error (firstn n m) k = nth_error m k).
  { induction m as [|x m IH]; intros [|n'] [|k'] H; cbn; auto; try lia. apply IH. lia. }
  rewrite G by auto. apply nth_error_skip.
Qed.

Lemma seg_length : forall {A} (l : list A) s n, s + n <= length l -> length (firstn n (skipn s l)) = n.
Proof. intros. rewrite firstn_length, skipn_length. lia. Qed.

Lemma list_ext : forall {A} (l m : list A), (forall k, nth_error l k = nth_error m k) -> l = m.
Proof.
  induction l as [|x l IH]; intros [|y m] H; auto; try (specialize (H 0); discriminate).
  pose proof (H 0) as H0. injection H0 as ->. f_equal. apply IH. intros k. exact (H (S k)).
Qed.

Lemma seg_ext : forall {A} (l m : list A) s n, length l = length m -> s + n <= length l ->
  (forall k, k < n -> nth_error l (s + k) = nth_error m (s + k)) -> firstn n (skipn s l) = firstn n (skipn s m).
Proof.
  intros A l m s n HL Hn H. apply list_ext. intros k. destruct (Nat.lt_ge_cases k n) as [Hk|Hk].
  - rewrite !nth_error_seg by auto. auto.
  - rewrite (proj2 (nth_error_None _ _)), (proj2 (nth_error_None _ _)); auto; rewrite seg_length; lia.
Qed.

Lemma on_segment_ok : forall {A} (f : list A -> outcome (list A)) l s n s', s + n <= length l ->
  f (firstn n (skipn s l)) = Ok s' -> length s' = n ->
  exists l', on_segment f l s n = Ok l' /\ length l' = length l /\
    (forall k, k < n -> nth_error l' (s + k) = nth_error s' k) /\
    (forall k, k < s \/ s + n <= k -> nth_error l' k = nth_error l k).
Proof.
  intros A f l s n s' Hn E L. unfold on_segment, segment. destruct (Nat.leb_spec (s + n) (length l)); [|lia]. cbn [obind].
  rewrite E. cbn [obind]. rewrite L, Nat.eqb_refl. eexists. split; [reflexivity|].
  assert (LF : length (firstn s l) = s) by (rewrite firstn_length; lia). split; [|split].
  - rewrite !app_length, skipn_length. lia.
  - intros k Hk. rewrite nth_error_app2 by lia. rewrite LF. replace (s + k - s) with k by lia. apply nth_error_app1. lia.
  - intros k [Hk|Hk].
    + rewrite nth_error_app1 by lia. pose proof (nth_error_seg l 0 s k Hk) as Q. cbn [skipn Nat.add] in Q. exact Q.
    + rewrite nth_error_app2 by lia. rewrite nth_error_app2 by lia. rewrite LF, L.
      rewrite nth_error_skip. f_equal. lia.
Qed.

Lemma segments_loop : forall {A X} (step : list A -> X -> outcome (list A)) (st ln : X -> nat) (F : X -> list A -> outcome (list A))
    (out : X -> list A) L xs,
  (forall x, In x xs -> st x + ln x <= L) ->
  ForallOrdPairs (fun x y => st x + ln x <= st y \/ st y + ln y <= st x) xs ->
  (forall l x, In x xs -> length l = L -> step l x = on_segment (F x) l (st x) (ln x)) ->
  forall l, length l = L -> (forall x, In x xs -> F x (firstn (ln x) (skipn (st x) l)) = Ok (out x) /\ length (out x) = ln x) ->
  exists l', ofold step xs l = Ok l' /\ length l' = L /\
    (forall x k, In x xs -> k < ln x -> nth_error l' (st x + k) = nth_error (out x) k) /\
    (forall k, (forall x, In x xs -> k < st x \/ st x + ln x <= k) -> nth_error l' k = nth_error l k).
Proof.
  intros A X step st ln F out L xs. induction xs as [|x xs IH]; intros B D ST l HL HF.
  - exists l. cbn [ofold]. repeat split; auto. intros x k [].
  - inversion D as [|? ? D1 D2]; subst. rewrite Forall_forall in D1.
    destruct (HF x (or_introl eq_refl)) as [E1 E2].
    destruct (on_segment_ok (F x) l (st x) (ln x) (out x) ltac:(apply B; left; auto) E1 E2) as (l1 & O1 & O2 & O3 & O4).
    destruct (IH ltac:(intros; apply B; right; auto) D2 ltac:(intros; apply ST; [right|]; auto) l1 ltac:(congruence)) as (l2 & R1 & R2 & R3 & R4).
    { intros y Hy. destruct (HF y (or_intror Hy)) as [G1 G2]. split; auto. rewrite <- G1. f_equal. apply seg_ext; auto.
      - rewrite O2. apply B. right. auto.
      - intros k Hk. apply O4. specialize (D1 y Hy). lia. }
    exists l2. cbn [ofold]. rewrite ST by (auto; left; auto). rewrite O1. cbn [obind]. split; [exact R1|]. split; [exact R2|]. split.
    + intros y k [->|Hy] Hk; [|auto]. rewrite R4; [auto|]. intros z Hz. specialize (D1 z Hz). lia.
    + intros k Hk. rewrite R4 by (intros; apply Hk; right; auto). apply O4. apply Hk. left. auto.
Qed.

Lemma nth_error_combine : forall {A B} (l : list A) (m : list B) k, nth_error (combine l m) k
  = match nth_error l k, nth_error m k with Some a, Some b => Some (a, b) | _, _ => None end.
Proof.
  induction l as [|a l IH]; intros [|b m] [|k]; cbn; auto. destruct (nth_error l k); reflexivity.
Qed.

(* ------------------------------------------------------------------ foundation *)
Lemma place_of_uid_ok : forall {P} (uc : list (usite P)) a u, (forall i j v w, nth_error uc i = Some v -> nth_error uc j = Some w ->
  u_uid v = u_uid w -> i = j) -> nth_error uc a = Some u -> place_of_uid uc (u_uid u) = Ok a.
Proof.
  induction uc as [|x uc IH]; intros a u I E; [destruct a; discriminate|]. cbn [place_of_uid].
  destruct (Nat.eqb_spec (u_uid x) (u_uid u)) as [H|H].
  - rewrite (I 0 a x u eq_refl E H). reflexivity.
  - destruct a as [|a]; cbn in E; [congruence|]. rewrite (IH a u); auto. intros i j v w H1 H2 H3.
    specialize (I (S i) (S j) v w H1 H2 H3). lia.
Qed.

Lemma place_block : forall size i a, positive_block size -> cell_of size i ->
  place size i a = a * Z.to_nat (prod3 size) + place size i 0 /\ place size i 0 < Z.to_nat (prod3 size).
Proof.
  intros size i a HP HC. split.
  - rewrite !place_flat. unfold flat_of. destruct HP as (P1 & P2 & P3), HC as (C1 & C2 & C3). unfold prod3.
    replace a with (Z.to_nat (Z.of_nat a)) at 2 by lia. rewrite <- Z2Nat.inj_mul by nia. rewrite <- Z2Nat.inj_add by nia. f_equal. nia.
  - pose proof (proj1 (place_bij size 1 HP) i 0 HC ltac:(lia)) as Q. unfold num_block_sites in Q. unfold prod3. lia.
Qed.

Lemma FOP_key : forall {A B} (key : A -> B) (Q : A -> A -> Prop) xs, NoDup (map key xs) ->
  (forall x y, In x xs -> In y xs -> key x <> key y -> Q x y) -> ForallOrdPairs Q xs.
Proof.
  induction xs as [|x xs IH]; intros ND H; constructor.
  - apply Forall_forall. intros y Hy. apply H; [left; auto|right; auto|]. inversion ND; subst. intros E. rewrite E in *. apply H2.
    apply in_map. auto.
  - inversion ND; subst. apply IH; auto. intros. apply H; try right; auto.
Qed.

Section Api.
  Variable R : scalar.
  Variable P : Type.
  Variable offset_ok : P -> bool.
  Variable order : list (family R) -> list (family R).
  Variable cs : list (lcall R P).
  Notation l := (calls offset_ok order cs).
  Variable subs : list (sublattice R P).
  Variable fams : list (family R).
  Hypothesis Hs : Permutation subs (l_subs l).
  Hypothesis Hf : Permutation fams (l_fams l).
  Variable uc : list (usite P).
  Hypothesis Huc : unit_cell subs fams = Ok uc.
  Variable size : idx3.
  Hypothesis Hsize : positive_block size.
  Notation N := (num_block_sites size (length uc)).
  Notation nc := (Z.to_nat (prod3 size)).

  Let I := inv_calls R P offset_ok order cs.

  Lemma uid_inj : forall i j v w, nth_error uc i = Some v -> nth_error uc j = Some w -> u_uid v = u_uid w -> i = j.
  Proof. rewrite (api_cell R P offset_ok order cs subs fams Hs Hf uc Huc). apply (cell_uid_inj R P l I fams). Qed.

  Lemma sub_place : forall sb, In sb subs -> exists a u, nth_error uc a = Some u /\ u_uid u = sb_uid sb /\ place_of_uid uc (sb_uid sb) = Ok a.
  Proof.
    intros sb H. assert (In sb (l_subs l)) by (eapply Permutation_in; eauto).
    assert (X : In (sb_uid sb) (map (@u_uid P) uc)).
    { rewrite (api_cell R P offset_ok order cs subs fams Hs Hf uc Huc), (cell_uids R P l fams).
      eapply Permutation_in; [apply (uids_perm R P l I)|]. rewrite <- (li_uids _ _ _ I). apply in_map. auto. }
    apply in_map_iff in X. destruct X as (u & E & Hu). apply In_nth_error in Hu. destruct Hu as (a & Ha).
    exists a, u. split; auto. split; auto. rewrite <- E. apply place_of_uid_ok; auto. apply uid_inj.
  Qed.

  Lemma place_sub : forall a, a < length uc -> exists sb, In sb subs /\ uid_at uc a = Some (sb_uid sb) /\ place_of_uid uc (sb_uid sb) = Ok a.
  Proof.
    intros a H. destruct (nth_error uc a) as [u|] eqn:E; [|apply nth_error_None in E; lia].
    pose proof E as E'. rewrite (api_cell R P offset_ok order cs subs fams Hs Hf uc Huc) in E'. apply (cell_sub R P l fams) in E'.
    destruct E' as (sb & S1 & _ & _ & S4 & _). exists sb. split; [eapply Permutation_in; [symmetry; exact Hs|auto]|].
    unfold uid_at. rewrite E. cbn [option_map]. split; [congruence|]. rewrite <- S4. apply place_of_uid_ok; auto. apply uid_inj.
  Qed.

  Let start (sb : sublattice R P) : nat := match place_of_uid uc (sb_uid sb) with Ok a => a * nc | _ => 0 end.

  Lemma N_blocks : N = length uc * nc.
  Proof. unfold num_block_sites, prod3. apply Nat.mul_comm. Qed.

  Lemma start_in : forall sb, In sb subs -> start sb + nc <= N.
  Proof.
    intros sb H. destruct (sub_place sb H) as (a & u & E & _ & EP). unfold start. rewrite EP, N_blocks.
    assert (a < length uc) by (apply nth_error_Some; congruence). nia.
  Qed.

  Lemma starts_apart : ForallOrdPairs (fun x y => start x + nc <= start y \/ start y + nc <= start x) subs.
  Proof.
    apply (FOP_key (@sb_uid R P)).
    - eapply Permutation_NoDup; [symmetry; apply Permutation_map; exact Hs|]. rewrite (li_uids _ _ _ I). apply seq_NoDup.
    - intros x y Hx Hy D. destruct (sub_place x Hx) as (a & u & E & U & EP). destruct (sub_place y Hy) as (b & w & E' & U' & EP').
      unfold start. rewrite EP, EP'. assert (a <> b) by (intros ->; congruence). nia.
  Qed.

  Lemma place_site : forall s sb, bsite_in size uc s -> In sb subs -> uid_at uc (snd s) = Some (sb_uid sb) ->
    place size (fst s) (snd s) = start sb + place size (fst s) 0 /\ place size (fst s) 0 < nc.
  Proof.
    intros s sb [HC HA] HB HU. destruct (place_block size (fst s) (snd s) Hsize HC) as [E1 E2]. split; auto.
    rewrite E1. f_equal. unfold start. unfold uid_at in HU. destruct (nth_error uc (snd s)) as [u|] eqn:E; [|discriminate].
    cbn [option_map] in HU. injection HU as <-. rewrite (place_of_uid_ok uc (snd s) u); auto. apply uid_inj.
  Qed.

  Lemma segment_in : forall {A} (x : list A) sb, length x = N -> In sb subs -> segment x (start sb) nc = Ok (firstn nc (skipn (start sb) x)).
  Proof. intros A x sb L H. unfold segment. pose proof (start_in sb H). destruct (Nat.leb_spec (start sb + nc) (length x)); [reflexivity|lia]. Qed.

  Lemma apply_rule : forall m r pos v, mod_is m r -> length pos = N -> length v = N ->
    exists pos' v', apply_foundation size uc subs (pos, v) m = Ok (pos', v') /\ rule_effect size uc (l_subs l) r pos v pos' v'.
  Proof.
    intros m r pos v HM LP LV. destruct m as [f k|f| |]; destruct r as [g k'|g]; try contradiction; cbn [mod_is] in HM.
    - destruct HM as [<- HF].
      pose (out := fun sb => map (fun pv => g (sb_name sb) (fst pv) (snd pv))
              (combine (firstn nc (skipn (start sb) pos)) (firstn nc (skipn (start sb) v)))).
      destruct (segments_loop (fun valid s => obind (place_of_uid uc (sb_uid s)) (fun a =>
               obind (segment pos (a * nc) nc) (fun ps => on_segment (fun v => f v ps (sb_name s)) valid (a * nc) nc)))
               start (fun _ => nc) (fun sb x => f x (firstn nc (skipn (start sb) pos)) (sb_name sb)) out N subs
               start_in starts_apart) with (l := v) as (v1 & E1 & L1 & A1 & _); auto.
      { intros x sb H Lx. destruct (sub_place sb H) as (a & u & _ & _ & EP). rewrite EP. cbn [obind].
        pose proof (segment_in pos sb LP H) as Q. unfold start in *. rewrite EP in *. rewrite Q. reflexivity. }
      { intros sb H. unfold out. split.
        - apply HF. rewrite !seg_length; auto; rewrite ?LP, ?LV; apply start_in; auto.
        - rewrite map_length, combine_length, !seg_length; rewrite ?LP, ?LV; try lia; apply start_in; auto. }
      assert (V1 : forall s sb p, bsite_in size uc s -> In sb (l_subs l) -> uid_at uc (snd s) = Some (sb_uid sb) ->
         nth_error pos (place size (fst s) (snd s)) = Some p -> flagged size v1 s = g (sb_name sb) p (flagged size v s)).
      { intros s sb p S1 S2 S3 S4. assert (S2' : In sb subs) by (eapply Permutation_in; [symmetry; exact Hs|auto]).
        destruct (place_site s sb S1 S2' S3) as [E2 E3]. unfold flagged. rewrite E2 in *. apply nth_error_nth.
        rewrite A1 by auto. unfold out. rewrite nth_error_map, nth_error_combine, !nth_error_seg by auto. rewrite S4.
        rewrite (nth_error_nth' v false); [reflexivity|]. pose proof (start_in sb S2'). lia. }
      cbn [apply_foundation fst snd]. rewrite E1. cbn [obind]. destruct (0 <? k)%Z eqn:EK.
      + destruct (trim_sites size uc Hsize (api_ok R P offset_ok order cs subs fams Hs Hf uc Huc) _ k v1 (Permutation_refl _) L1) as (v2 & E2 & L2 & T1 & T2 & T3).
        rewrite <- remove_dangling_all in E2. rewrite E2. cbn [omap obind]. eexists _, _. split; [reflexivity|].
        split; [reflexivity|]. split; [congruence|]. split; [reflexivity|]. exists (flagged size v1). split; auto. rewrite EK. split; auto.
      + cbn [omap obind]. eexists _, _. split; [reflexivity|]. split; [reflexivity|]. split; [congruence|]. split; [reflexivity|].
        exists (flagged size v1). split; auto. rewrite EK. auto.
    - pose (out := fun sb => map (g (sb_name sb)) (firstn nc (skipn (start sb) pos))).
      destruct (segments_loop (fun x s => obind (place_of_uid uc (sb_uid s)) (fun a =>
           on_segment (fun ps => f ps (sb_name s)) x (a * nc) nc))
               start (fun _ => nc) (fun sb x => f x (sb_name sb)) out N subs
               start_in starts_apart) with (l := pos) as (p1 & E1 & L1 & A1 & _); auto.
      { intros x sb H Lx. destruct (sub_place sb H) as (a & u & _ & _ & EP). unfold start. rewrite EP. reflexivity. }
      { intros sb H. unfold out. split; [apply HM|]. rewrite map_length, seg_length; auto. rewrite LP. apply start_in; auto. }
      cbn [apply_foundation fst snd]. rewrite E1. cbn [omap obind]. eexists _, _. split; [reflexivity|].
      split; [congruence|]. split; [reflexivity|]. split; [reflexivity|].
      intros s sb p S1 S2 S3 S4. assert (S2' : In sb subs) by (eapply Permutation_in; [symmetry; exact Hs|auto]).
      destruct (place_site s sb S1 S2' S3) as [E2 E3]. rewrite E2 in *. rewrite A1 by auto. unfold out.
      rewrite nth_error_map, nth_error_seg by auto. rewrite S4. reflexivity.
  Qed.

  Lemma apply_rules : forall ms rs pos v, Forall2 mod_is ms rs -> length pos = N -> length v = N ->
    exists pos' v', ofold (apply_foundation size uc subs) ms (pos, v) = Ok (pos', v') /\ length pos' = N /\ length v' = N /\
      rules_effect size uc (l_subs l) rs pos v pos' v'.
  Proof.
    intros ms rs pos v H. revert pos v. induction H as [|m r ms rs H1 H2 IH]; intros pos v LP LV.
    - exists pos, v. cbn [ofold]. repeat split; auto. constructor.
    - destruct (apply_rule m r pos v H1 LP LV) as (p1 & v1 & E1 & R1). pose proof R1 as (L1 & L2 & _).
      destruct (IH p1 v1 ltac:(congruence) ltac:(congruence)) as (p2 & v2 & E2 & L3 & L4 & R2).
      exists p2, v2. cbn [ofold]. rewrite E1. cbn [obind]. repeat split; auto. econstructor; eauto.
  Qed.

  (** Rules that only remove sites leave no site outside the initial set. *)
  Lemma rules_remove : forall rs pos v pos' v', rules_effect size uc (l_subs l) rs pos v pos' v' -> Forall only_removes rs ->
    length pos = N -> subset_of size uc (flagged size v') (flagged size v).
  Proof.
    intros rs pos v pos' v' H. induction H as [|r rs pos v p1 v1 p2 v2 H1 H2 IH]; intros HR LP.
    - intros s _ E. exact E.
    - inversion HR as [|? ? R1 R2]; subst. pose proof H1 as (L1 & L2 & X). specialize (IH R2 ltac:(congruence)).
      intros s Hs' E. specialize (IH s Hs' E). destruct r as [g k|g]; [|destruct X as [-> _]; auto].
      destruct X as (_ & L & XL & XK).
      assert (LS : L s = true) by (destruct (0 <? k)%Z; [apply XK; auto|rewrite <- XK; auto]).
      destruct (place_sub (snd s) (proj2 Hs')) as (sb & B1 & B2 & _).
      assert (PL : place size (fst s) (snd s) < length pos) by (rewrite LP; apply (place_bij size (length uc)); auto; apply Hs').
      destruct (nth_error pos (place size (fst s) (snd s))) as [p|] eqn:EP; [|apply nth_error_None in EP; lia].
      rewrite (XL s sb p Hs' ltac:(eapply Permutation_in; eauto) B2 EP) in LS.
      destruct (flagged size v s); auto. cbn [only_removes] in R1. rewrite R1 in LS. discriminate.
  Qed.
End Api.
