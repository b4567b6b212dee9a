(* Proofs for find_bounds and shapes. *)
From Verif Require Import Base Foundation FoundationSpec FoundationFacts Geometry GeometrySpec.
From Coq Require Import Lqa Permutation.
Local Open Scope Q_scope.

(* ------------------------------------------------------------------ truncation *)
Lemma trunc_low : forall q z, q <= inject_Z z -> (qtrunc q - 1 <= z - 1)%Z \/ (qtrunc q <= z)%Z.
Proof.
  intros [n d] z H. right. unfold qtrunc. unfold Qle in H. cbn in H. cbn [Qnum Qden].
  pose proof (Z.quot_rem' n (Zpos d)) as E. destruct (Z_le_gt_dec 0 n).
  - pose proof (Z.rem_bound_pos n (Zpos d) ltac:(lia) ltac:(lia)). nia.
  - pose proof (Z.rem_bound_pos_neg n (Zpos d) ltac:(lia) ltac:(lia)). nia.
Qed.

Lemma trunc_le : forall q z, q <= inject_Z z -> (qtrunc q <= z)%Z.
Proof. intros q z H. destruct (trunc_low q z H); lia. Qed.

Lemma trunc_ge : forall q z, inject_Z z <= q -> (z <= qtrunc q)%Z.
Proof.
  intros [n d] z H. unfold qtrunc. unfold Qle in H. cbn in H. cbn [Qnum Qden].
  pose proof (Z.quot_rem' n (Zpos d)) as E. destruct (Z_le_gt_dec 0 n).
  - pose proof (Z.rem_bound_pos n (Zpos d) ltac:(lia) ltac:(lia)). nia.
  - pose proof (Z.rem_bound_pos_neg n (Zpos d) ltac:(lia) ltac:(lia)). nia.
Qed.

Lemma to_int_ok : forall z r, to_int z = Ok r <-> (r = z /\ int_min <= z <= int_max)%Z.
Proof.
  intros z r. unfold to_int. destruct (Z.leb_spec int_min z), (Z.leb_spec z int_max); cbn [andb]; split; intros E;
    try discriminate; try (injection E as <-; lia); destruct E as [-> E]; try reflexivity; lia.
Qed.

Lemma int3_ok : forall i r, int3 i = Ok r <-> (r = i /\ forall k, (k < 3)%nat -> (int_min <= comp k i <= int_max)%Z).
Proof.
  intros [x y z] r. unfold int3. cbn [ix iy iz]. split.
  - intros E. destruct (to_int x) as [x'| |] eqn:EX; try discriminate. cbn [obind] in E.
    destruct (to_int y) as [y'| |] eqn:EY; try discriminate. cbn [obind] in E.
    destruct (to_int z) as [z'| |] eqn:EZ; try discriminate. cbn in E. injection E as <-.
    apply to_int_ok in EX, EY, EZ. destruct EX as [-> ?], EY as [-> ?], EZ as [-> ?]. split; [reflexivity|].
    intros [|[|k]] _; cbn [comp ix iy iz]; assumption.
  - intros [-> H]. pose proof (H 0%nat ltac:(lia)) as A. pose proof (H 1%nat ltac:(lia)) as B. pose proof (H 2%nat ltac:(lia)) as C.
    cbn [comp ix iy iz] in A, B, C.
    rewrite (proj2 (to_int_ok x x) (conj eq_refl A)). cbn [obind].
    rewrite (proj2 (to_int_ok y y) (conj eq_refl B)). cbn [obind].
    rewrite (proj2 (to_int_ok z z) (conj eq_refl C)). reflexivity.
Qed.

(* ------------------------------------------------------------------ find_bounds *)
Section Bounds.
  Context {P : Type}.
  Variable solve : P -> q3.
  Variable ndim : nat.

  Definition tc (k : nat) (p : P) : Z := qtrunc (coord k (translate_coordinates solve ndim p)).

  Lemma tc_low : forall k p, (k < 3)%nat -> (k < ndim)%nat -> tc k p = qtrunc (coord k (solve p)).
  Proof.
    intros k p H3 Hk. unfold tc, translate_coordinates. destruct k as [|[|[|k]]]; [| | |lia]; cbn [coord qx qy qz].
    - destruct (Nat.ltb_spec 0 ndim); [reflexivity|lia].
    - destruct (Nat.ltb_spec 1 ndim); [reflexivity|lia].
    - destruct (Nat.ltb_spec 2 ndim); [reflexivity|lia].
  Qed.

  Lemma tc_high : forall k p, (k < 3)%nat -> (ndim <= k)%nat -> tc k p = 0%Z.
  Proof.
    intros k p H3 Hk. unfold tc, translate_coordinates. destruct k as [|[|[|k]]]; [| | |lia]; cbn [coord qx qy qz].
    - destruct (Nat.ltb_spec 0 ndim); [lia|reflexivity].
    - destruct (Nat.ltb_spec 1 ndim); [lia|reflexivity].
    - destruct (Nat.ltb_spec 2 ndim); [lia|reflexivity].
  Qed.

  Lemma bounds_step_ok : forall b p b', bounds_step solve ndim b p = Ok b' <->
    (b' = (I3 (select_lt (tc 0 p) (ix (fst b))) (select_lt (tc 1 p) (iy (fst b))) (select_lt (tc 2 p) (iz (fst b))),
           I3 (select_gt (tc 0 p) (ix (snd b))) (select_gt (tc 1 p) (iy (snd b))) (select_gt (tc 2 p) (iz (snd b)))) /\
     forall k, (k < 3)%nat -> (int_min <= tc k p <= int_max)%Z).
  Proof.
    intros b p b'. unfold bounds_step. set (c := translate_coordinates solve ndim p).
    assert (FT : forall k, comp k (I3 (qtrunc (qx c)) (qtrunc (qy c)) (qtrunc (qz c))) = tc k p) by (intros [|[|k]]; reflexivity).
    split.
    - intros E. destruct (int3 _) as [v| |] eqn:EI; try discriminate. cbn [obind] in E. injection E as <-.
      apply int3_ok in EI. destruct EI as [-> H]. split; [reflexivity|]. intros k Hk. rewrite <- FT. auto.
    - intros [-> H]. rewrite (proj2 (int3_ok _ _) (conj eq_refl (fun k Hk => eq_rect_r (fun z => (int_min <= z <= int_max)%Z) (H k Hk) (FT k)))).
      reflexivity.
  Qed.

  Definition lower_of (k : nat) (vs : list P) (b : Z) : Z := fold_left (fun b p => select_lt (tc k p) b) vs b.
  Definition upper_of (k : nat) (vs : list P) (b : Z) : Z := fold_left (fun b p => select_gt (tc k p) b) vs b.

  Lemma bounds_fold : forall vs b b', ofold (bounds_step solve ndim) vs b = Ok b' <->
    (b' = (I3 (lower_of 0 vs (ix (fst b))) (lower_of 1 vs (iy (fst b))) (lower_of 2 vs (iz (fst b))),
           I3 (upper_of 0 vs (ix (snd b))) (upper_of 1 vs (iy (snd b))) (upper_of 2 vs (iz (snd b)))) /\
     forall p k, In p vs -> (k < 3)%nat -> (int_min <= tc k p <= int_max)%Z).
  Proof.
    induction vs as [|p vs IH]; intros [[l1 l2 l3] [u1 u2 u3]] b'; cbn [ofold].
    - split; [intros E; injection E as <-; split; [reflexivity|intros p k []]|intros [-> _]; reflexivity].
    - split.
      + intros E. destruct (bounds_step solve ndim _ p) as [b1| |] eqn:E1; try discriminate. cbn [obind] in E.
        apply bounds_step_ok in E1. destruct E1 as [-> H1]. apply IH in E. destruct E as [-> H].
        split; [reflexivity|]. intros q k [<-|Hq] Hk; auto.
      + intros [-> H]. rewrite (proj2 (bounds_step_ok _ p _) (conj eq_refl (fun k Hk => H p k (or_introl eq_refl) Hk))). cbn [obind].
        apply IH. split; [reflexivity|]. intros q k Hq. apply H. right. exact Hq.
  Qed.

  Lemma lower_spec : forall k vs b, (lower_of k vs b <= b)%Z /\ (forall p, In p vs -> (lower_of k vs b <= tc k p)%Z) /\
    (lower_of k vs b = b \/ exists p, In p vs /\ lower_of k vs b = tc k p).
  Proof.
    intros k. unfold lower_of. induction vs as [|p vs IH]; intros b; cbn [fold_left].
    - split; [lia|]. split; [intros p []|left; reflexivity].
    - destruct (IH (select_lt (tc k p) b)) as (A & B & C). unfold select_lt in *.
      destruct (Z.ltb_spec (tc k p) b).
      + split; [lia|]. split; [intros q [<-|Hq]; [lia|auto]|]. right. destruct C as [C|(q & Hq & C)]; [exists p|exists q]; split; auto; [left|right]; auto.
      + split; [lia|]. split; [intros q [<-|Hq]; [lia|auto]|]. destruct C as [C|(q & Hq & C)]; [left; auto|right; exists q; split; auto; right; auto].
  Qed.

  Lemma upper_spec : forall k vs b, (b <= upper_of k vs b)%Z /\ (forall p, In p vs -> (tc k p <= upper_of k vs b)%Z) /\
    (upper_of k vs b = b \/ exists p, In p vs /\ upper_of k vs b = tc k p).
  Proof.
    intros k. unfold upper_of. induction vs as [|p vs IH]; intros b; cbn [fold_left].
    - split; [lia|]. split; [intros p []|left; reflexivity].
    - destruct (IH (select_gt (tc k p) b)) as (A & B & C). unfold select_gt in *.
      destruct (Z.ltb_spec b (tc k p)).
      + split; [lia|]. split; [intros q [<-|Hq]; [lia|auto]|]. right. destruct C as [C|(q & Hq & C)]; [exists p|exists q]; split; auto; [left|right]; auto.
      + split; [lia|]. split; [intros q [<-|Hq]; [lia|auto]|]. destruct C as [C|(q & Hq & C)]; [left; auto|right; exists q; split; auto; right; auto].
  Qed.

  Definition pad (k : nat) : Z := if (k <? ndim)%nat then 1%Z else 0%Z.

  Lemma comp_head : forall k z, (k < 3)%nat -> comp k (head3 ndim z) = if (k <? ndim)%nat then z else 0%Z.
  Proof. intros k z Hk. unfold head3. destruct k as [|[|[|k]]]; [| | |lia]; reflexivity. Qed.
  Lemma comp_add : forall k a b, comp k (add3 a b) = (comp k a + comp k b)%Z.
  Proof. intros [|[|k]] a b; reflexivity. Qed.
  Lemma comp_neg : forall k a, comp k (neg3 a) = (- comp k a)%Z.
  Proof. intros [|[|k]] a; reflexivity. Qed.

  Lemma shape_block_ok : forall vs lo size, shape_block solve ndim vs = Ok (lo, size) <->
    ((2 <= length vs)%nat /\ (forall p k, In p vs -> (k < 3)%nat -> (int_min <= tc k p <= int_max)%Z) /\
     (forall k, (k < 3)%nat -> let l := lower_of k vs int_max in let u := upper_of k vs int_min in
        comp k lo = l - pad k /\ comp k size = u - l + 2 * pad k + 1 /\ int_min <= l - pad k /\ u + pad k <= int_max /\
        u - l + 2 * pad k + 1 <= int_max)%Z).
  Proof.
    intros vs lo size. unfold shape_block. destruct (Nat.ltb_spec (length vs) 2).
    { split; [discriminate|]. intros [H2 _]. lia. }
    unfold find_bounds.
    set (init := (I3 int_max int_max int_max, I3 int_min int_min int_min)).
    set (bL := I3 (lower_of 0 vs int_max) (lower_of 1 vs int_max) (lower_of 2 vs int_max)).
    set (bU := I3 (upper_of 0 vs int_min) (upper_of 1 vs int_min) (upper_of 2 vs int_min)).
    assert (CL : forall k, (k < 3)%nat -> comp k bL = lower_of k vs int_max) by (intros [|[|[|k]]] Hk; [| | |lia]; reflexivity).
    assert (CU : forall k, (k < 3)%nat -> comp k bU = upper_of k vs int_min) by (intros [|[|[|k]]] Hk; [| | |lia]; reflexivity).
    assert (PV : forall k, (pad k = if (k <? ndim)%nat then 1 else 0)%Z) by reflexivity.
    assert (P01 : forall k, (0 <= pad k <= 1)%Z) by (intros k; unfold pad; destruct (k <? ndim)%nat; lia).
    assert (BL : (forall p k, In p vs -> (k < 3)%nat -> (int_min <= tc k p <= int_max)%Z) -> forall k, (k < 3)%nat ->
      (int_min <= lower_of k vs int_max <= int_max)%Z /\ (int_min <= upper_of k vs int_min <= int_max)%Z /\ (lower_of k vs int_max <= upper_of k vs int_min)%Z).
    { intros R k Hk. destruct vs as [|p0 vs0]; [cbn in *; lia|]. set (vs' := p0 :: vs0) in *.
      destruct (lower_spec k vs' int_max) as (L1 & L2 & L3). destruct (upper_spec k vs' int_min) as (U1 & U2 & U3).
      assert (I0 : In p0 vs') by (left; reflexivity). pose proof (L2 _ I0). pose proof (U2 _ I0). pose proof (R _ k I0 Hk).
      unfold int_min, int_max in *.
      destruct L3 as [L3|(q & Hq & L3)]; destruct U3 as [U3|(q' & Hq' & U3)]; try (pose proof (R _ k Hq Hk)); try (pose proof (R _ k Hq' Hk)); lia. }
    split.
    - intros E. destruct (ofold (bounds_step solve ndim) vs init) as [b| |] eqn:EF; try discriminate. cbn [obind] in E.
      apply bounds_fold in EF. destruct EF as [-> R]. cbn [fst snd init ix iy iz] in E. fold bL bU in E.
      destruct (int3 (add3 bL (head3 ndim (-1)))) as [l| |] eqn:EL; try discriminate. cbn [obind] in E.
      destruct (int3 (add3 bU (head3 ndim 1))) as [u| |] eqn:EU; try discriminate. cbn [omap obind] in E.
      unfold block_size in E. cbn [fst snd] in E.
      destruct (int3 (add3 u (neg3 l))) as [d| |] eqn:ED; try discriminate. cbn [obind] in E.
      destruct (int3 (add3 d (I3 1 1 1))) as [sz| |] eqn:ES; try discriminate. cbn [omap obind] in E. injection E as <- <-.
      apply int3_ok in EL, EU, ED, ES. destruct EL as [-> HL], EU as [-> HU], ED as [-> HD], ES as [-> HS].
      split; [exact H|]. split; [exact R|]. intros k Hk. cbv zeta. 
      specialize (HL k Hk). specialize (HU k Hk). specialize (HS k Hk). rewrite !comp_add, ?comp_neg, ?comp_add, ?comp_head, ?CL, ?CU in * by auto.
      assert (comp k (I3 1 1 1) = 1%Z) as O by (destruct k as [|[|k]]; reflexivity). rewrite O in *. rewrite PV. destruct (k <? ndim)%nat; lia.
    - intros (_ & R & H3). rewrite (proj2 (bounds_fold vs init _) (conj eq_refl R)). cbn [obind fst snd init ix iy iz]. fold bL bU.
      assert (G1 : int3 (add3 bL (head3 ndim (-1))) = Ok (add3 bL (head3 ndim (-1)))).
      { apply int3_ok. split; [reflexivity|]. intros k Hk. rewrite comp_add, comp_head, CL by auto. destruct (H3 k Hk) as (_ & _ & A & B & C).
        destruct (BL R k Hk) as (D1 & D2 & D3). rewrite PV in *. destruct (k <? ndim)%nat; lia. }
      rewrite G1. cbn [obind].
      assert (G2 : int3 (add3 bU (head3 ndim 1)) = Ok (add3 bU (head3 ndim 1))).
      { apply int3_ok. split; [reflexivity|]. intros k Hk. rewrite comp_add, comp_head, CU by auto. destruct (H3 k Hk) as (_ & _ & A & B & C).
        destruct (BL R k Hk) as (D1 & D2 & D3). rewrite PV in *. destruct (k <? ndim)%nat; lia. }
      rewrite G2. cbn [omap obind]. unfold block_size. cbn [fst snd].
      set (d := add3 (add3 bU (head3 ndim 1)) (neg3 (add3 bL (head3 ndim (-1))))).
      assert (CD : forall k, (k < 3)%nat -> comp k d = (upper_of k vs int_min - lower_of k vs int_max + 2 * pad k)%Z).
      { intros k Hk. unfold d. rewrite !comp_add, comp_neg, !comp_add, !comp_head, CU, CL by auto. rewrite PV. destruct (k <? ndim)%nat; lia. }
      assert (G3 : int3 d = Ok d).
      { apply int3_ok. split; [reflexivity|]. intros k Hk. rewrite CD by auto. destruct (H3 k Hk) as (_ & _ & A & B & C).
        destruct (BL R k Hk) as (D1 & D2 & D3). specialize (P01 k). unfold int_min, int_max in *. lia. }
      rewrite G3. cbn [obind].
      assert (G4 : int3 (add3 d (I3 1 1 1)) = Ok (add3 d (I3 1 1 1))).
      { apply int3_ok. split; [reflexivity|]. intros k Hk. rewrite comp_add, CD by auto. assert (comp k (I3 1 1 1) = 1%Z) as -> by (destruct k as [|[|k]]; reflexivity).
        destruct (H3 k Hk) as (_ & _ & A & B & C). destruct (BL R k Hk) as (D1 & D2 & D3). specialize (P01 k). unfold int_min, int_max in *. lia. }
      rewrite G4. cbn [omap obind]. f_equal.
      assert (EXT : forall a b, (forall k, (k < 3)%nat -> comp k a = comp k b) -> a = b).
      { intros [a1 a2 a3] [b1 b2 b3] X. pose proof (X 0%nat ltac:(lia)) as X0. pose proof (X 1%nat ltac:(lia)) as X1. pose proof (X 2%nat ltac:(lia)) as X2. cbn in *. congruence. }
      f_equal; apply EXT; intros k Hk; destruct (H3 k Hk) as (A & B & _).
      + rewrite A, comp_add, comp_head, CL by auto. rewrite PV. destruct (k <? ndim)%nat; lia.
      + rewrite B, comp_add, CD by auto. assert (comp k (I3 1 1 1) = 1%Z) as -> by (destruct k as [|[|k]]; reflexivity). reflexivity.
  Qed.

  Theorem block_covers : forall vs lo size, shape_block solve ndim vs = Ok (lo, size) ->
    (forall k, (k < 3)%nat -> (0 < comp k size)%Z) /\
    (forall k, (k < 3)%nat -> (ndim <= k)%nat -> comp k lo = 0%Z /\ comp k size = 1%Z) /\
    (forall k n d, (k < 3)%nat -> (k < ndim)%nat -> -(1) <= d <= 1 ->
       spans (fun p => coord k (solve p)) vs (inject_Z n + d) -> (comp k lo <= n < comp k lo + comp k size)%Z) /\
    (forall k n, (k < 3)%nat -> (k < ndim)%nat -> 
       spans (fun p => coord k (solve p)) vs (inject_Z n) -> (comp k lo + 1 <= n < comp k lo + comp k size - 1)%Z).
  Proof.
    intros vs lo size E. apply shape_block_ok in E. destruct E as (L2 & R & H).
    assert (NE : exists p, In p vs) by (destruct vs as [|p vs]; [cbn in L2; lia|exists p; left; reflexivity]).
    split; [|split; [|split]].
    - intros k Hk. destruct (H k Hk) as (_ & -> & _). destruct NE as (p & Hp).
      pose proof (proj1 (proj2 (lower_spec k vs int_max)) p Hp). pose proof (proj1 (proj2 (upper_spec k vs int_min)) p Hp).
      unfold pad. destruct (k <? ndim)%nat; lia.
    - intros k Hk Hn. destruct (H k Hk) as (-> & -> & _). unfold pad. destruct (Nat.ltb_spec k ndim); [lia|].
      destruct NE as (p & Hp). destruct (lower_spec k vs int_max) as (L1 & L2' & L3). destruct (upper_spec k vs int_min) as (U1 & U2 & U3).
      pose proof (L2' p Hp). pose proof (U2 p Hp). rewrite (tc_high k p Hk Hn) in *. unfold int_max, int_min in *.
      destruct L3 as [L3|(q & _ & L3)]; [lia|]. rewrite (tc_high k q Hk Hn) in L3.
      destruct U3 as [U3|(q' & _ & U3)]; [lia|]. rewrite (tc_high k q' Hk Hn) in U3. rewrite L3, U3. lia.
    - intros k n d Hk Hn Hd (u & w & Hu & Hw & A & B). destruct (H k Hk) as (-> & -> & _).
      pose proof (proj1 (proj2 (lower_spec k vs int_max)) u Hu) as LU. pose proof (proj1 (proj2 (upper_spec k vs int_min)) w Hw) as UW.
      rewrite tc_low in LU, UW by auto. unfold pad. destruct (Nat.ltb_spec k ndim); [|lia].
      assert (A1 : (qtrunc (coord k (solve u)) <= n + 1)%Z) by (apply trunc_le; rewrite inject_Z_plus; change (inject_Z 1) with 1; lra).
      assert (B1 : (n - 1 <= qtrunc (coord k (solve w)))%Z).
      { apply trunc_ge. unfold Z.sub. rewrite inject_Z_plus. change (inject_Z (- (1))) with (-(1)). lra. }
      lia.
    - intros k n Hk Hn (u & w & Hu & Hw & A & B). destruct (H k Hk) as (-> & -> & _).
      pose proof (proj1 (proj2 (lower_spec k vs int_max)) u Hu) as LU. pose proof (proj1 (proj2 (upper_spec k vs int_min)) w Hw) as UW.
      rewrite tc_low in LU, UW by auto. unfold pad. destruct (Nat.ltb_spec k ndim); [|lia].
      apply trunc_le in A. apply trunc_ge in B. lia.
  Qed.

  Theorem block_exists : forall vs, (2 <= length vs)%nat ->
    (forall p k, In p vs -> (k < 3)%nat -> -(500000000) <= coord k (solve p) <= 500000000) ->
    exists lo size, shape_block solve ndim vs = Ok (lo, size).
  Proof.
    intros vs L2 B.
    assert (R : forall p k, In p vs -> (k < 3)%nat -> (-500000000 <= tc k p <= 500000000)%Z).
    { intros p k Hp Hk. destruct (Nat.ltb_spec k ndim).
      - rewrite tc_low by auto. destruct (B p k Hp Hk) as [B1 B2]. split; [apply trunc_ge; exact B1|apply trunc_le; exact B2].
      - rewrite tc_high by auto. lia. }
    assert (G : forall k, (k < 3)%nat -> (-500000000 <= lower_of k vs int_max <= 500000000 /\ -500000000 <= upper_of k vs int_min <= 500000000)%Z).
    { intros k Hk. destruct vs as [|p0 vs0]; [cbn in *; lia|]. set (vs' := p0 :: vs0) in *. assert (I0 : In p0 vs') by (left; reflexivity).
      destruct (lower_spec k vs' int_max) as (L1 & L2' & L3). destruct (upper_spec k vs' int_min) as (U1 & U2 & U3).
      pose proof (L2' _ I0). pose proof (U2 _ I0). pose proof (R _ k I0 Hk). unfold int_max, int_min in *.
      destruct L3 as [L3|(q & Hq & L3)]; [lia|]. destruct U3 as [U3|(q' & Hq' & U3)]; [lia|].
      pose proof (R _ k Hq Hk). pose proof (R _ k Hq' Hk). lia. }
    set (f := fun k => (lower_of k vs int_max - pad k)%Z). set (g := fun k => (upper_of k vs int_min - lower_of k vs int_max + 2 * pad k + 1)%Z).
    exists (I3 (f 0%nat) (f 1%nat) (f 2%nat)), (I3 (g 0%nat) (g 1%nat) (g 2%nat)). apply shape_block_ok. split; [exact L2|]. split.
    - intros p k Hp Hk. specialize (R p k Hp Hk). unfold int_min, int_max. lia.
    - intros k Hk. cbv zeta. specialize (G k Hk). assert (0 <= pad k <= 1)%Z by (unfold pad; destruct (k <? ndim)%nat; lia).
      unfold int_min, int_max in *.
      assert (comp k (I3 (f 0%nat) (f 1%nat) (f 2%nat)) = f k) as -> by (destruct k as [|[|[|k]]]; [| | |lia]; reflexivity).
      assert (comp k (I3 (g 0%nat) (g 1%nat) (g 2%nat)) = g k) as -> by (destruct k as [|[|[|k]]]; [| | |lia]; reflexivity).
      unfold f, g, int_min, int_max. lia.
  Qed.
End Bounds.

(* ------------------------------------------------------------------ primitive *)
Lemma primitive_ok : forall size,
  match primitive_block size with
  | Ok (lo, hi, sz) => (forall k, (k < 3)%nat -> 0 < comp k size)%Z /\ sz = size /\
      (forall k, (k < 3)%nat -> comp k hi - comp k lo + 1 = comp k size /\ comp k lo <= 0 <= comp k hi /\ 0 <= - comp k lo - comp k hi <= 1)%Z
  | Throw => exists k, (k < 3)%nat /\ (comp k size <= 0)%Z
  | UB => False
  end.
Proof.
  intros [x y z]. unfold primitive_block. cbn [ix iy iz].
  destruct (Z.leb_spec x 0); [exists 0%nat; split; [lia|exact H]|].
  destruct (Z.leb_spec y 0); [exists 1%nat; split; [lia|exact H0]|].
  destruct (Z.leb_spec z 0); [exists 2%nat; split; [lia|exact H1]|]. cbn [orb].
  assert (G : forall x, (0 < x -> Z.quot (x - 1) 2 - Z.quot (- x) 2 + 1 = x /\ Z.quot (- x) 2 <= 0 <= Z.quot (x - 1) 2 /\ 0 <= - Z.quot (- x) 2 - Z.quot (x - 1) 2 <= 1)%Z).
  { clear. intros x Hx. rewrite Z.quot_opp_l by lia. rewrite !Z.quot_div_nonneg by lia.
    pose proof (Z.div_mod x 2 ltac:(lia)). pose proof (Z.mod_pos_bound x 2 ltac:(lia)).
    pose proof (Z.div_mod (x - 1) 2 ltac:(lia)). pose proof (Z.mod_pos_bound (x - 1) 2 ltac:(lia)). lia. }
  split; [intros [|[|k]] Hk; cbn [comp ix iy iz]; lia|]. split; [reflexivity|].
  intros [|[|k]] Hk; cbn [comp ix iy iz]; apply G; lia.
Qed.
