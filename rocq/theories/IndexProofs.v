(* Index arithmetic of the foundation: flat index <-> (cell, sublattice), iterators, slices. *)
From Verif Require Import Base Rle Blocks Foundation.
Local Open Scope Z_scope.

Definition pos_size (size : idx3) : Prop := 0 < ix size /\ 0 < iy size /\ 0 < iz size.

Definition cell_in (size i : idx3) : Prop :=
  0 <= ix i < ix size /\ 0 <= iy i < iy size /\ 0 <= iz i < iz size.

Lemma in_block_spec : forall size i, in_block size i = true <-> cell_in size i.
Proof.
  intros. unfold in_block, cell_in. rewrite negb_true_iff, !orb_false_iff.
  rewrite !Z.ltb_ge, !Z.leb_gt. intuition lia.
Qed.

Definition unflat (size : idx3) (m : Z) : site :=
  Site (I3 (m mod ix size) ((m / ix size) mod iy size) ((m / ix size / iy size) mod iz size))
       (m / ix size / iy size / iz size) m.

Lemma div_succ : forall m d, 0 < d ->
  (m + 1) / d = (if (m mod d + 1 =? d) then m / d + 1 else m / d) /\
  (m + 1) mod d = (if (m mod d + 1 =? d) then 0 else m mod d + 1).
Proof.
  intros m d Hd. pose proof (Z.div_mod m d ltac:(lia)) as E. pose proof (Z.mod_pos_bound m d Hd) as B.
  destruct (Z.eqb_spec (m mod d + 1) d) as [H|H].
  - assert ((m + 1) = d * (m / d + 1) + 0) as E2 by nia.
    split; [symmetry; apply (Z.div_unique _ _ _ 0); nia | symmetry; apply (Z.mod_unique _ _ (m / d + 1)); nia].
  - split; [symmetry; apply (Z.div_unique _ _ _ (m mod d + 1)); nia | symmetry; apply (Z.mod_unique _ _ (m / d)); nia].
Qed.

Lemma it_next_unflat : forall size m, pos_size size ->
  it_next size (unflat size m) = unflat size (m + 1).
Proof.
  intros [sx sy sz] m (Hx & Hy & Hz). unfold it_next, unflat. cbn [ix iy iz s_idx s_sub s_flat] in *.
  destruct (div_succ m sx Hx) as [D1 M1]. rewrite M1, D1.
  destruct (m mod sx + 1 =? sx); [|reflexivity].
  destruct (div_succ (m / sx) sy Hy) as [D2 M2]. rewrite M2, D2.
  destruct ((m / sx) mod sy + 1 =? sy); [|reflexivity].
  destruct (div_succ (m / sx / sy) sz Hz) as [D3 M3]. rewrite M3, D3.
  destruct ((m / sx / sy) mod sz + 1 =? sz); reflexivity.
Qed.

Lemma walk_map : forall {S} (next : S -> S) (g : Z -> S) (n : nat) m,
  (forall k, m <= k -> next (g k) = g (k + 1)) ->
  walk next n (g m) = map (fun k => g (m + Z.of_nat k)) (seq 0 n).
Proof.
  intros S next g n. induction n; intros m H; [reflexivity|].
  cbn [walk seq map]. rewrite H by lia. rewrite IHn by (intros; apply H; lia).
  f_equal; [f_equal; lia|]. rewrite <- seq_shift, map_map. apply map_ext. intros k. f_equal. lia.
Qed.

Lemma unflat_0 : forall size, pos_size size -> unflat size 0 = Site zero3 0 0.
Proof.
  intros [sx sy sz] (Hx & Hy & Hz). cbn [ix iy iz] in *. unfold unflat, zero3. cbn [ix iy iz].
  repeat (rewrite Z.div_0_l by lia). repeat (rewrite Z.mod_0_l by lia). reflexivity.
Qed.

Lemma all_sites_eq : forall size nsub, pos_size size ->
  all_sites size nsub = map (fun k => unflat size (Z.of_nat k)) (seq 0 (Z.to_nat (f_size size nsub))).
Proof.
  intros size nsub H. unfold all_sites. rewrite <- (unflat_0 size H).
  rewrite (walk_map _ (unflat size)) by (intros; apply it_next_unflat; auto).
  apply map_ext. intros k. f_equal.
Qed.

Lemma flat_unflat : forall size m, pos_size size ->
  flat_of size (s_idx (unflat size m)) (s_sub (unflat size m)) = m.
Proof.
  intros [sx sy sz] m (Hx & Hy & Hz). unfold unflat, flat_of. cbn [ix iy iz s_idx s_sub] in *.
  pose proof (Z.div_mod m sx ltac:(lia)). pose proof (Z.div_mod (m / sx) sy ltac:(lia)).
  pose proof (Z.div_mod (m / sx / sy) sz ltac:(lia)). nia.
Qed.

Lemma unflat_flat : forall size i sub, cell_in size i ->
  unflat size (flat_of size i sub) = mk_site size i sub.
Proof.
  intros [sx sy sz] [x y z] sub (Hx & Hy & Hz). unfold unflat, mk_site, flat_of. cbn [ix iy iz] in *.
  set (q := (sub * sz + z)). set (q2 := q * sy + y).
  assert (E1 : (q2 * sx + x) / sx = q2) by (symmetry; apply (Z.div_unique _ _ _ x); lia).
  assert (M1 : (q2 * sx + x) mod sx = x) by (symmetry; apply (Z.mod_unique _ _ q2); lia).
  rewrite E1, M1.
  assert (E2 : q2 / sy = q) by (symmetry; apply (Z.div_unique _ _ _ y); unfold q2; lia).
  assert (M2 : q2 mod sy = y) by (symmetry; apply (Z.mod_unique _ _ q); unfold q2; lia).
  rewrite E2, M2.
  assert (E3 : q / sz = sub) by (symmetry; apply (Z.div_unique _ _ _ z); unfold q; lia).
  assert (M3 : q mod sz = z) by (symmetry; apply (Z.mod_unique _ _ sub); unfold q; lia).
  rewrite E3, M3. reflexivity.
Qed.

Lemma flat_bounds : forall size i sub nsub, cell_in size i -> 0 <= sub < Z.of_nat nsub ->
  0 <= flat_of size i sub < f_size size nsub.
Proof.
  intros [sx sy sz] [x y z] sub nsub (Hx & Hy & Hz) Hs. unfold flat_of, f_size, prod3. cbn [ix iy iz] in *.
  set (q := (sub * sz + z)). assert (0 <= q < Z.of_nat nsub * sz) by (unfold q; nia).
  set (q2 := q * sy + y). assert (0 <= q2 < Z.of_nat nsub * sz * sy) by (unfold q2; nia).
  assert (0 <= q2 * sx + x < Z.of_nat nsub * sz * sy * sx) by nia. nia.
Qed.

Lemma unflat_in : forall size m nsub, pos_size size -> 0 <= m < f_size size nsub ->
  cell_in size (s_idx (unflat size m)) /\ 0 <= s_sub (unflat size m) < Z.of_nat nsub.
Proof.
  intros [sx sy sz] m nsub (Hx & Hy & Hz) Hm. unfold unflat, cell_in, f_size, prod3 in *. cbn [ix iy iz s_idx s_sub] in *.
  repeat split; try (apply Z.mod_pos_bound; lia).
  - apply Z.div_pos; [|lia]. apply Z.div_pos; [|lia]. apply Z.div_pos; lia.
  - apply Z.div_lt_upper_bound; [lia|]. apply Z.div_lt_upper_bound; [lia|]. apply Z.div_lt_upper_bound; [lia|]. nia.
Qed.

Lemma flat_inj : forall size i sub j sub', cell_in size i -> cell_in size j ->
  flat_of size i sub = flat_of size j sub' -> i = j /\ sub = sub'.
Proof.
  intros size i sub j sub' Hi Hj E.
  pose proof (unflat_flat size i sub Hi) as A. pose proof (unflat_flat size j sub' Hj) as B.
  rewrite E in A. rewrite A in B. unfold mk_site in B. injection B; auto.
Qed.

Lemma prod3_pos : forall size, pos_size size -> 0 < prod3 size.
Proof. intros [sx sy sz] (Hx & Hy & Hz). unfold prod3. cbn [ix iy iz] in *. nia. Qed.

Lemma f_size_nat : forall size nsub, pos_size size ->
  Z.to_nat (f_size size nsub) = (Z.to_nat (prod3 size) * nsub)%nat.
Proof.
  intros size nsub H. pose proof (prod3_pos size H). unfold f_size.
  rewrite Z2Nat.inj_mul by lia. rewrite Nat2Z.id. reflexivity.
Qed.

(** Membership in the full iteration. *)
Lemma all_sites_in : forall size nsub s, pos_size size ->
  In s (all_sites size nsub) <->
  cell_in size (s_idx s) /\ 0 <= s_sub s < Z.of_nat nsub /\ s_flat s = flat_of size (s_idx s) (s_sub s).
Proof.
  intros size nsub s H. rewrite all_sites_eq by auto. rewrite in_map_iff. split.
  - intros (k & <- & Hk). apply in_seq in Hk.
    assert (B : 0 <= Z.of_nat k < f_size size nsub) by lia.
    destruct (unflat_in size (Z.of_nat k) nsub H B) as [C D]. repeat split; try apply C; try apply D.
    rewrite flat_unflat by auto. reflexivity.
  - intros (C & D & F). pose proof (flat_bounds size _ _ nsub C D) as B.
    exists (Z.to_nat (s_flat s)). rewrite F. split.
    + rewrite Z2Nat.id by lia. rewrite unflat_flat by auto. destruct s; cbn in *. unfold mk_site. congruence.
    + apply in_seq. lia.
Qed.

(* ---------------------------------------------------------------- slices *)
Definition slice_dims (r : slice3) : idx3 :=
  I3 (sl_end (slx r) - sl_start (slx r)) (sl_end (sly r) - sl_start (sly r)) (sl_end (slz r) - sl_start (slz r)).
Definition slice_start (r : slice3) : idx3 := I3 (sl_start (slx r)) (sl_start (sly r)) (sl_start (slz r)).

Definition slice_at (size : idx3) (r : slice3) (m : Z) : site :=
  let u := unflat (slice_dims r) m in mk_site size (add3 (slice_start r) (s_idx u)) (s_sub u).

Lemma sl_next_at : forall size r m, pos_size (slice_dims r) ->
  sl_next size r (slice_at size r m) = slice_at size r (m + 1).
Proof.
  intros size [[x0 x1] [y0 y1] [z0 z1]] m H.
  unfold slice_at. rewrite <- it_next_unflat by auto.
  destruct (unflat (slice_dims (Sl3 (Sl x0 x1) (Sl y0 y1) (Sl z0 z1))) m) as [[x y z] sub fl].
  unfold sl_next, it_next, slice_dims, slice_start, add3, mk_site.
  cbn [slx sly slz sl_start sl_end ix iy iz s_idx s_sub s_flat].
  assert (EX : forall a b c : Z, (a + b + 1 =? c) = (b + 1 =? c - a)).
  { intros a b c. destruct (Z.eqb_spec (a + b + 1) c), (Z.eqb_spec (b + 1) (c - a)); auto; lia. }
  rewrite !EX.
  destruct (x + 1 =? x1 - x0); [destruct (y + 1 =? y1 - y0); [destruct (z + 1 =? z1 - z0)|]|];
    cbn [ix iy iz s_idx s_sub]; f_equal; try (f_equal; lia); unfold flat_of; cbn [ix iy iz]; lia.
Qed.

Definition slice_nonempty (r : slice3) : Prop := pos_size (slice_dims r).

Lemma slice_sites_eq : forall size nsub r, slice_nonempty (normalize size r) ->
  slice_sites size nsub r =
  map (fun k => slice_at size (normalize size r) (Z.of_nat k))
      (seq 0 (Z.to_nat (f_size (slice_dims (normalize size r)) nsub))).
Proof.
  intros size nsub r0 H. unfold slice_sites. set (r := normalize size r0) in *.
  assert (E : sl_begin size r = slice_at size r 0).
  { unfold slice_at. rewrite unflat_0 by auto. unfold sl_begin, slice_start, add3, zero3. cbn [ix iy iz s_idx s_sub].
    rewrite !Z.add_0_r. reflexivity. }
  rewrite E, (walk_map _ (slice_at size r)) by (intros; apply sl_next_at; auto).
  assert (E2 : slice3_size r = prod3 (slice_dims r)).
  { destruct H as (Hx & Hy & Hz). unfold slice3_size, prod3, slice_size, slice_dims in *. cbn [ix iy iz] in *.
    destruct (Z.ltb_spec (sl_start (slx r)) (sl_end (slx r))); [|lia].
    destruct (Z.ltb_spec (sl_start (sly r)) (sl_end (sly r))); [|lia].
    destruct (Z.ltb_spec (sl_start (slz r)) (sl_end (slz r))); [|lia]. reflexivity. }
  rewrite E2. reflexivity.
Qed.

Definition in_slice (r : slice3) (i : idx3) : Prop :=
  sl_start (slx r) <= ix i < sl_end (slx r) /\
  sl_start (sly r) <= iy i < sl_end (sly r) /\
  sl_start (slz r) <= iz i < sl_end (slz r).

Lemma slice_sites_in : forall size nsub r0 s, slice_nonempty (normalize size r0) ->
  In s (slice_sites size nsub r0) <->
  in_slice (normalize size r0) (s_idx s) /\ 0 <= s_sub s < Z.of_nat nsub /\
  s_flat s = flat_of size (s_idx s) (s_sub s).
Proof.
  intros size nsub r0 s H. rewrite slice_sites_eq by auto. set (r := normalize size r0) in *.
  rewrite in_map_iff. split.
  - intros (k & <- & Hk). apply in_seq in Hk.
    assert (B : 0 <= Z.of_nat k < f_size (slice_dims r) nsub) by lia.
    destruct (unflat_in (slice_dims r) (Z.of_nat k) nsub H B) as [(C1 & C2 & C3) D].
    unfold slice_at. set (u := unflat (slice_dims r) (Z.of_nat k)) in *. clearbody u.
    unfold mk_site, in_slice. unfold add3, slice_start. cbn [s_idx s_sub s_flat ix iy iz].
    unfold slice_dims in C1, C2, C3. cbn [ix iy iz] in C1, C2, C3.
    repeat split; try lia; apply D.
  - intros (C & D & F).
    set (j := I3 (ix (s_idx s) - sl_start (slx r)) (iy (s_idx s) - sl_start (sly r)) (iz (s_idx s) - sl_start (slz r))).
    assert (J : cell_in (slice_dims r) j).
    { unfold cell_in, slice_dims, j, in_slice in *. cbn [ix iy iz]. lia. }
    pose proof (flat_bounds (slice_dims r) j (s_sub s) nsub J D) as B.
    exists (Z.to_nat (flat_of (slice_dims r) j (s_sub s))). split; [|apply in_seq; lia].
    unfold slice_at. rewrite Z2Nat.id by lia. rewrite unflat_flat by auto. cbn [s_idx s_sub mk_site].
    destruct s as [[x y z] sub fl]. unfold mk_site, add3, slice_start, j. cbn [ix iy iz s_idx s_sub s_flat] in *.
    rewrite !Zplus_minus. rewrite F. reflexivity.
Qed.

(** Strictly increasing flat index along the slice (the slice lies inside the block). *)
Lemma slice_at_incr : forall size r m,
  pos_size (slice_dims r) -> 0 <= m ->
  0 <= sl_start (slx r) -> sl_end (slx r) <= ix size ->
  0 <= sl_start (sly r) -> sl_end (sly r) <= iy size ->
  0 <= sl_start (slz r) -> sl_end (slz r) <= iz size ->
  s_flat (slice_at size r m) < s_flat (slice_at size r (m + 1)).
Proof.
  intros size r m H Hm X0 X1 Y0 Y1 Z0 Z1. rewrite <- sl_next_at by auto.
  assert (IN : in_slice r (s_idx (slice_at size r m))).
  { unfold slice_at, mk_site. cbn [s_idx]. 
    unfold in_slice, add3, slice_start, unflat. cbn [ix iy iz s_idx].
    pose proof H as (Hx & Hy & Hz). unfold slice_dims in *. cbn [ix iy iz] in *.
    pose proof (Z.mod_pos_bound m _ Hx). 
    pose proof (Z.mod_pos_bound (m / (sl_end (slx r) - sl_start (slx r))) _ Hy). 
    pose proof (Z.mod_pos_bound (m / (sl_end (slx r) - sl_start (slx r)) / (sl_end (sly r) - sl_start (sly r))) _ Hz).
    lia. }
  assert (FL : s_flat (slice_at size r m) = flat_of size (s_idx (slice_at size r m)) (s_sub (slice_at size r m))) by reflexivity.
  rewrite FL. clear FL. destruct (slice_at size r m) as [[x y z] sub fl].
  unfold sl_next, in_slice in *. cbn [ix iy iz s_idx s_sub] in *.
  destruct size as [sx sy sz]. destruct r as [[x0 x1] [y0 y1] [z0 z1]]. cbn [slx sly slz sl_start sl_end ix iy iz] in *.
  destruct (Z.eqb_spec (x + 1) x1); [destruct (Z.eqb_spec (y + 1) y1); [destruct (Z.eqb_spec (z + 1) z1)|]|];
    unfold mk_site, flat_of; cbn [s_flat ix iy iz].
  - (* sub + 1 *)
    assert ((sub * sz + z) < ((sub + 1) * sz + z0)) by nia.
    assert (((sub * sz + z) * sy + y) < (((sub + 1) * sz + z0) * sy + y0)) by nia. nia.
  - assert (((sub * sz + z) * sy + y) < ((sub * sz + (z + 1)) * sy + y0)) by nia. nia.
  - nia.
  - lia.
Qed.
