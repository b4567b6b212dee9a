(* Proofs about translations and periodic boundaries. *)
From Verif Require Import Base Rle RleProofs Blocks Foundation Scalar Lattice LatticeSpec LatticeProofs IndexProofs PositionProofs DanglingGraph DanglingProofs FinalProofs UnitCellProofs FoundationSpec FoundationFacts PopulateFacts Symmetry SymmetrySpec.
From Coq Require Import Permutation.

(* ------------------------------------------------------------ the list of translations *)
Definition directions {P} (uc : list (usite P)) (s : sym) : list idx3 :=
  flat_map (fun u => flat_map (fun h => map (fun m => mul3 (h_rel h) m) (make_masks s)) (u_hops u)) uc.

Lemma fold_left_flat_map : forall {A B C} (f : A -> B -> A) (g : C -> list B) l a,
  fold_left (fun a c => fold_left f (g c) a) l a = fold_left f (flat_map g l) a.
Proof. induction l as [|c l IH]; intros a; cbn; [reflexivity|]. rewrite fold_left_app. apply IH. Qed.

Lemma fold_left_map' : forall {A B C} (f : A -> B -> A) (g : C -> B) l a,
  fold_left (fun a c => f a (g c)) l a = fold_left f (map g l) a.
Proof. induction l as [|c l IH]; intros a; cbn; auto. Qed.

Lemma fold_left_ext' : forall {A B} (f g : A -> B -> A) l a, (forall a b, f a b = g a b) -> fold_left f l a = fold_left g l a.
Proof. induction l as [|c l IH]; intros a H; cbn; auto. rewrite H. apply IH; auto. Qed.

Lemma translations_eq : forall P size (uc : list (usite P)) s,
  translations size uc s = fold_left (add_translation (area_of size s)) (directions uc s) [].
Proof.
  intros. unfold translations, directions. rewrite <- fold_left_flat_map. apply fold_left_ext'. intros ts u.
  rewrite <- fold_left_flat_map. apply fold_left_ext'. intros ts' h.
  rewrite <- fold_left_map'. reflexivity.
Qed.

Lemma eqb3_iff : forall a b, eqb3 a b = true <-> a = b.
Proof.
  intros [a1 a2 a3] [b1 b2 b3]. unfold eqb3. cbn [ix iy iz]. rewrite !andb_true_iff, !Z.eqb_eq. split.
  - intros [[-> ->] ->]. reflexivity.
  - intros E. injection E as -> -> ->. auto.
Qed.

Lemma add_translations_spec : forall a ds ts,
  NoDup (map tr_dir ts) -> (forall t, In t ts -> tr_dir t <> zero3 /\ t = make_translation a (tr_dir t)) ->
  let ts' := fold_left (add_translation a) ds ts in
  NoDup (map tr_dir ts') /\ (forall t, In t ts' -> tr_dir t <> zero3 /\ t = make_translation a (tr_dir t)) /\
  (forall d, In d (map tr_dir ts') <-> In d (map tr_dir ts) \/ (In d ds /\ d <> zero3)).
Proof.
  intros a. induction ds as [|d ds IH]; intros ts ND TS; cbn [fold_left].
  - split; [exact ND|]. split; [exact TS|]. intros d. cbn [In]. tauto.
  - assert (C : (add_translation a ts d = ts /\ (d = zero3 \/ In d (map tr_dir ts))) \/
               (add_translation a ts d = ts ++ [make_translation a d] /\ d <> zero3 /\ ~ In d (map tr_dir ts))).
    { unfold add_translation. destruct (eqb3 d zero3) eqn:E0; [apply eqb3_iff in E0; left; auto|].
      assert (d <> zero3) by (intros ->; discriminate E0).
      destruct (existsb _ ts) eqn:EX.
      - left. split; auto. right. apply existsb_exists in EX. destruct EX as (t & Ht & Et). apply eqb3_iff in Et. subst d. apply in_map; auto.
      - right. split; auto. split; auto. intros Hin. apply in_map_iff in Hin. destruct Hin as (t & Et & Ht).
        assert (existsb (fun t => eqb3 (tr_dir t) d) ts = true); [|congruence]. apply existsb_exists. exists t. split; auto. apply eqb3_iff; auto. }
    destruct C as [[-> C]|[-> [C1 C2]]].
    + destruct (IH ts ND TS) as (A & B & D). split; [exact A|]. split; [exact B|]. intros d'. rewrite D. cbn [In].
      split; [tauto|]. intros [X|[[<-|X] Y]]; auto. destruct C; [contradiction|auto].
    + destruct (IH (ts ++ [make_translation a d])) as (A & B & D).
      * rewrite map_app. cbn [map]. apply NoDup_app_intro; auto; [repeat constructor; intros []|]. cbn [make_translation tr_dir]. intros x Hx [<-|[]]. auto.
      * intros t Ht. apply in_app_iff in Ht. destruct Ht as [Ht|[<-|[]]]; auto.
      * split; [exact A|]. split; [exact B|]. intros d'. rewrite D, map_app, in_app_iff. cbn [map In make_translation tr_dir].
        split; [intros [[X|[<-|[]]]|X]; auto; tauto|]. intros [X|[[<-|X] Y]]; auto.
Qed.

Definition enabled (p : option Z) (m : Z) : Prop := m = 0%Z \/ (m = 1%Z /\ p <> None).

Lemma zupto_in : forall p m, In m (zupto (enabled01 p)) <-> enabled p m.
Proof.
  intros p m. unfold zupto, enabled. destruct p as [n|].
  - change (map Z.of_nat (seq 0 (Z.to_nat (enabled01 (Some n) + 1)))) with [0%Z; 1%Z]. cbn [In]. split.
    + intros [<-|[<-|[]]]; [left; reflexivity|right; split; [reflexivity|discriminate]].
    + intros [->|[-> _]]; [left; reflexivity|right; left; reflexivity].
  - change (map Z.of_nat (seq 0 (Z.to_nat (enabled01 None + 1)))) with [0%Z]. cbn [In]. split.
    + intros [<-|[]]; left; reflexivity.
    + intros [->|[_ X]]; [left; reflexivity|congruence].
Qed.

Lemma masks_in : forall s m, In m (make_masks s) <-> enabled (sy1 s) (ix m) /\ enabled (sy2 s) (iy m) /\ enabled (sy3 s) (iz m).
Proof.
  intros s m. unfold make_masks. rewrite in_flat_map. split.
  - intros (i & Hi & H). apply in_flat_map in H. destruct H as (j & Hj & H). apply in_map_iff in H. destruct H as (k & <- & Hk).
    cbn [ix iy iz]. rewrite <- !zupto_in. auto.
  - intros (H1 & H2 & H3). exists (ix m). rewrite zupto_in. split; auto. apply in_flat_map. exists (iy m). rewrite zupto_in. split; auto.
    apply in_map_iff. exists (iz m). rewrite zupto_in. destruct m; auto.
Qed.

Lemma directions_in : forall P (uc : list (usite P)) s d, In d (directions uc s) <->
  exists u h m, In u uc /\ In h (u_hops u) /\ In m (make_masks s) /\ d = mul3 (h_rel h) m.
Proof.
  intros. unfold directions. rewrite in_flat_map. split.
  - intros (u & Hu & H). apply in_flat_map in H. destruct H as (h & Hh & H). apply in_map_iff in H. destruct H as (m & <- & Hm). eauto 8.
  - intros (u & h & m & Hu & Hh & Hm & ->). exists u. split; auto. apply in_flat_map. exists h. split; auto. apply in_map_iff. eauto.
Qed.

Lemma translations_spec : forall P size (uc : list (usite P)) s,
  NoDup (map tr_dir (translations size uc s)) /\
  (forall t, In t (translations size uc s) <->
     exists u h m, In u uc /\ In h (u_hops u) /\ In m (make_masks s) /\ mul3 (h_rel h) m <> zero3 /\
       t = make_translation (area_of size s) (mul3 (h_rel h) m)).
Proof.
  intros. rewrite translations_eq.
  destruct (add_translations_spec (area_of size s) (directions uc s) []) as (A & B & C); [constructor|intros t []|].
  split; [exact A|]. intros t. split.
  - intros Ht. destruct (B t Ht) as [Z E]. assert (X : In (tr_dir t) (map tr_dir (fold_left (add_translation (area_of size s)) (directions uc s) []))) by (apply in_map; auto).
    apply C in X. destruct X as [[]|[X _]]. apply directions_in in X. destruct X as (u & h & m & Hu & Hh & Hm & Ed).
    exists u, h, m. rewrite <- Ed. auto.
  - intros (u & h & m & Hu & Hh & Hm & Z & ->).
    assert (X : In (mul3 (h_rel h) m) (map tr_dir (fold_left (add_translation (area_of size s)) (directions uc s) []))).
    { apply C. right. split; auto. apply directions_in. eauto 8. }
    apply in_map_iff in X. destruct X as (t & Et & Ht). destruct (B t Ht) as [_ E]. rewrite <- Et. rewrite <- E. exact Ht.
Qed.

(* ------------------------------------------------------------ area *)
Lemma num_period : forall p, match p with Some n => num_cells n | None => 0%Z end = period p.
Proof. destruct p as [n|]; [|reflexivity]. unfold num_cells, period. destruct (Z.ltb_spec 0 n); lia. Qed.

Lemma area1_ok : forall size p, (0 < size)%Z -> (period p <= size)%Z ->
  let a := area1 size p in
  (0 <= fst (fst a) /\ snd (fst a) < size /\ fst (fst a) <= snd (fst a) /\ snd a = period p /\ 
  (forall x, in_period1 size p x <-> fst (fst a) <= x <= snd (fst a)))%Z.
Proof.
  intros size p Hs Hp a. unfold a, area1. destruct p as [n|].
  - cbv zeta. pose proof (num_period (Some n)) as E. cbn match in E. rewrite E in *. clear E.
    assert (1 <= period (Some n))%Z by (unfold period; lia). unfold in_period1. set (q := period (Some n)) in *. clearbody q.
    cbn [fst snd]. rewrite Z.quot_div_nonneg by lia.
    assert (0 <= (size - q) / 2)%Z by (apply Z.div_pos; lia).
    assert ((size - q) / 2 <= size - q)%Z by (apply Z.div_le_upper_bound; lia).
    repeat split; try lia.
  - cbn [fst snd]. unfold in_period1, period in *. repeat split; try lia.
Qed.

Lemma area_ok : forall size s, positive_block size -> block_holds_period size s ->
  let a := area_of size s in
  (0 <= ix (a_left a) /\ ix (a_right a) < ix size /\ ix (a_left a) <= ix (a_right a) /\
   0 <= iy (a_left a) /\ iy (a_right a) < iy size /\ iy (a_left a) <= iy (a_right a) /\
   0 <= iz (a_left a) /\ iz (a_right a) < iz size /\ iz (a_left a) <= iz (a_right a))%Z /\
  a_middle a = I3 (period (sy1 s)) (period (sy2 s)) (period (sy3 s)) /\
  (forall i, in_period size s i <-> contains a i = true).
Proof.
  intros size s (Hx & Hy & Hz) (Px & Py & Pz) a.
  destruct (area1_ok _ (sy1 s) Hx Px) as (A1 & A2 & A3 & A4 & A5).
  destruct (area1_ok _ (sy2 s) Hy Py) as (B1 & B2 & B3 & B4 & B5).
  destruct (area1_ok _ (sy3 s) Hz Pz) as (C1 & C2 & C3 & C4 & C5).
  unfold a, area_of. cbn [a_left a_right a_middle ix iy iz]. split; [repeat split; assumption|]. split; [congruence|].
  intros i. unfold in_period, contains. cbn [a_left a_right ix iy iz]. rewrite A5, B5, C5, !andb_true_iff, !Z.leb_le. tauto.
Qed.

(** apply keeps exactly the valid sites of the periodic cell. *)
Lemma sym_apply_ok : forall size nsub s valid, positive_block size -> block_holds_period size s ->
  length valid = num_block_sites size nsub ->
  exists valid', sym_apply size nsub s valid = Ok valid' /\ length valid' = length valid /\
    forall i a, cell_of size i -> a < nsub ->
      (flagged size valid' (i, a) = true <-> flagged size valid (i, a) = true /\ in_period size s i).
Proof.
  intros size nsub s valid Hs Hp LV. destruct (area_ok size s Hs Hp) as (_ & _ & AC).
  unfold sym_apply. rewrite all_sites_eq by auto. rewrite nbs_eq by auto.
  set (c := fun k => contains (area_of size s) (s_idx (unflat size (Z.of_nat k)))).
  assert (G : forall n k v, k + n <= length v -> 
    exists v', ofold (fun v st => obind (agetZ v (s_flat st)) (fun b => asetZ v (s_flat st) (b && contains (area_of size s) (s_idx st))))
       (map (fun k => unflat size (Z.of_nat k)) (seq k n)) v = Ok v' /\ length v' = length v /\
       forall j, nth j v' false = if (k <=? j) && (j <? k + n) then nth j v false && c j else nth j v false).
  { induction n as [|n IH]; intros k v Hk; cbn [seq map ofold].
    - exists v. split; [reflexivity|]. split; auto. intros j. destruct (Nat.leb_spec k j), (Nat.ltb_spec j (k + 0)); auto; lia.
    - change (s_flat (unflat size (Z.of_nat k))) with (Z.of_nat k). rewrite agetZ_nat, (aget_ok v k false) by lia. cbn [obind]. rewrite asetZ_nat, (aget_ok v k false) by lia. cbn [obind].
      destruct (IH (S k) (upd v k (nth k v false && c k))) as (v' & E & L & J); [rewrite upd_length; lia|].
      exists v'. split; [exact E|]. rewrite upd_length in L. split; [exact L|]. intros j. rewrite J. rewrite nth_upd by lia.
      destruct (Nat.eqb_spec k j) as [<-|Hne].
      + destruct (Nat.leb_spec (S k) k); [lia|]. cbn [andb]. destruct (Nat.leb_spec k k), (Nat.ltb_spec k (k + S n)); try lia. reflexivity.
      + destruct (Nat.leb_spec (S k) j), (Nat.ltb_spec j (S k + n)), (Nat.leb_spec k j), (Nat.ltb_spec j (k + S n)); try lia; reflexivity. }
  destruct (G (num_block_sites size nsub) 0 valid) as (v' & E & L & J); [lia|].
  exists v'. split; [exact E|]. split; [exact L|]. intros i a Hi Ha. unfold flagged. cbn [fst snd]. rewrite J.
  assert (PL : place size i a < num_block_sites size nsub) by (apply (place_bij size nsub); auto).
  destruct (Nat.leb_spec 0 (place size i a)); [|lia]. destruct (Nat.ltb_spec (place size i a) (0 + num_block_sites size nsub)); [|lia]. cbn [andb].
  rewrite andb_true_iff. unfold c. change (s_idx (unflat size (Z.of_nat (place size i a)))) with (fst (bs_of size (place size i a))).
  rewrite (bs_of_place size) by auto. cbn [fst]. rewrite <- AC. tauto.
Qed.
