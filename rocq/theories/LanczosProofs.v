(* The vectors of the Lanczos procedure are orthonormal and the tridiagonal matrix is the form of
   the Hamiltonian on them. *)
From Verif Require Import Base Scalar Kpm KpmSpec KpmVec KpmCheb KpmGram RSum Cplx Lanczos TridiagProofs.
From Coq Require Import Reals Lra.
Local Open Scope R_scope.
Add Ring CXring : (k_ring CX).

(** ** Abstract procedure in a real inner product space *)
Section Abstract.
  Variable V : Type.
  Variable zero : V.
  Variable lin : R -> V -> R -> V -> V.   (* a u + b v *)
  Variable rip : V -> V -> R.
  Variable A : V -> V.
  Hypothesis rip_lin : forall a u b v w, rip (lin a u b v) w = a * rip u w + b * rip v w.
  Hypothesis rip_sym : forall u v, rip u v = rip v u.
  Hypothesis rip_zero : forall w, rip zero w = 0.
  Hypothesis rip_pos : forall u, 0 <= rip u u.
  Hypothesis rip_self : forall u v, rip (A u) v = rip u (A v).
  Hypothesis A_lin : forall a u b v w, rip (A (lin a u b v)) w = a * rip (A u) w + b * rip (A v) w.
  Variable u0 : V.
  Hypothesis unit0 : rip u0 u0 = 1.

  Definition resid (p c : V) (b : R) : V := lin 1 (lin 1 (A c) (- b) p) (- rip c (A c)) c.
  Fixpoint lz (k : nat) : V * V * R :=
    match k with
    | O => (zero, u0, 0)
    | S j => let '(p, c, b) := lz j in let w := resid p c b in let b' := sqrt (rip w w) in (c, lin (1 / b') w 0 w, b')
    end.
  Definition vk k := snd (fst (lz k)).
  Definition pk k := fst (fst (lz k)).
  Definition bp k := snd (lz k).
  Definition al k := rip (vk k) (A (vk k)).
  Definition wk k := resid (pk k) (vk k) (bp k).
  Definition bt k := sqrt (rip (wk k) (wk k)).
  Lemma vk_S : forall k, vk (S k) = lin (1 / bt k) (wk k) 0 (wk k).
  Proof. intros k. unfold vk, bt, wk, pk, vk, bp. cbn [lz]. destruct (lz k) as [[p c] b]. reflexivity. Qed.
  Lemma pk_S : forall k, pk (S k) = vk k.
  Proof. intros k. unfold pk, vk. cbn [lz]. destruct (lz k) as [[p c] b]. reflexivity. Qed.
  Lemma bp_S : forall k, bp (S k) = bt k.
  Proof. intros k. unfold bp, bt, wk, pk, vk, bp. cbn [lz]. destruct (lz k) as [[p c] b]. reflexivity. Qed.

  Lemma rip_w : forall k x, rip (wk k) x = rip (A (vk k)) x - bp k * rip (pk k) x - al k * rip (vk k) x.
  Proof. intros k x. unfold wk, resid. rewrite !rip_lin. fold (al k). ring. Qed.
  Lemma rip_Av : forall k x, rip (A (vk k)) x = bp k * rip (pk k) x + al k * rip (vk k) x + rip (wk k) x.
  Proof. intros k x. rewrite rip_w. ring. Qed.
  Lemma rip_next : forall k x, rip (vk (S k)) x = 1 / bt k * rip (wk k) x.
  Proof. intros k x. rewrite vk_S, rip_lin. ring. Qed.
  Lemma bt_sq : forall k, bt k * bt k = rip (wk k) (wk k).
  Proof. intros k. unfold bt. apply sqrt_sqrt, rip_pos. Qed.
  Lemma rip_w_next : forall k x, bt k <> 0 -> rip (wk k) x = bt k * rip (vk (S k)) x.
  Proof. intros k x H. rewrite rip_next. field. exact H. Qed.

  Definition dl (i j : nat) : R := if (i =? j)%nat then 1 else 0.
  Lemma dl_sym : forall i j, dl i j = dl j i. Proof. intros. unfold dl. rewrite Nat.eqb_sym. reflexivity. Qed.

  (** the previous vector of step [j], orthogonal to everything for step 0 *)
  Lemma prev_rip : forall j k x, (forall i, (i <= k)%nat -> rip (vk i) x = dl i k) -> (j <= k)%nat ->
    bp j * rip (pk j) x = 0.
  Proof.
    intros [|j] k x H Hj.
    - unfold bp. cbn. ring.
    - rewrite pk_S, bp_S, H by lia. unfold dl. destruct (Nat.eqb_spec j k); [lia|ring].
  Qed.

  Lemma orth : forall k, (forall j, (j < k)%nat -> bt j <> 0) -> forall i j, (i <= k)%nat -> (j <= k)%nat -> rip (vk i) (vk j) = dl i j.
  Proof.
    induction k as [|k IH]; intros NZ.
    - intros i j Hi Hj. replace i with O by lia. replace j with O by lia. exact unit0.
    - specialize (IH ltac:(intros; apply NZ; lia)).
      assert (W : forall i, (i <= k)%nat -> rip (wk k) (vk i) = 0).
      { intros i Hi. rewrite rip_w. destruct (Nat.eq_dec i k) as [->|N].
        - rewrite (prev_rip k k) by (auto; intros; apply IH; lia). rewrite IH by lia. unfold dl. rewrite Nat.eqb_refl.
          rewrite (rip_sym (A (vk k))). fold (al k). ring.
        - rewrite rip_self, (rip_sym (vk k)), rip_Av. rewrite (rip_w_next i) by (apply NZ; lia).
          rewrite (prev_rip i k) by (try lia; intros; apply IH; lia). rewrite (IH i k), (IH (S i) k), (IH k i) by lia.
          destruct k as [|k']; [lia|]. rewrite bp_S, pk_S, (IH k' i) by lia. unfold dl.
          destruct (Nat.eqb_spec i (S k')); [lia|]. destruct (Nat.eqb_spec (S k') i); [lia|].
          destruct (Nat.eqb_spec (S i) (S k')) as [E|E], (Nat.eqb_spec k' i) as [E'|E']; try lia; [subst; ring|ring]. }
      intros i j Hi Hj. destruct (Nat.eq_dec i (S k)) as [->|Ni], (Nat.eq_dec j (S k)) as [->|Nj].
      + rewrite rip_next, rip_sym, rip_next, <- bt_sq. unfold dl. rewrite Nat.eqb_refl. field. apply NZ; lia.
      + rewrite rip_next, W by lia. unfold dl. destruct (Nat.eqb_spec (S k) j); [lia|ring].
      + rewrite rip_sym, rip_next, W by lia. unfold dl. destruct (Nat.eqb_spec i (S k)); [lia|ring].
      + apply IH; lia.
  Qed.

  (** the elements of the tridiagonal matrix *)
  Lemma tri_elem : forall k, (forall j, (j < k)%nat -> bt j <> 0) -> forall i j, (i <= j)%nat -> (j <= k)%nat ->
    rip (vk i) (A (vk j)) = if (i =? j)%nat then al i else if (i + 1 =? j)%nat then bt i else 0.
  Proof.
    intros k NZ i j Hij Hj. pose proof (orth k NZ) as O. destruct (Nat.eqb_spec i j) as [->|N]; [reflexivity|].
    rewrite <- rip_self, rip_Av. rewrite (rip_w_next i) by (apply NZ; lia). rewrite (prev_rip i j) by (try lia; intros; apply O; lia).
    rewrite (O i j), (O (S i) j) by lia. unfold dl. destruct (Nat.eqb_spec i j); [lia|].
    destruct (Nat.eqb_spec (S i) j), (Nat.eqb_spec (i + 1) j); try lia; ring.
  Qed.

  (** combinations of the vectors *)
  Fixpoint comb (c : nat -> R) (n : nat) : V := match n with O => zero | S m => lin 1 (comb c m) (c m) (vk m) end.
  Lemma rip_comb : forall c n x, rip (comb c n) x = rsum (fun i => c i * rip (vk i) x) n.
  Proof. intros c n x. induction n as [|n IH]; cbn [comb rsum]; [apply rip_zero|]. rewrite rip_lin, IH. ring. Qed.
  Lemma A_zero : forall w, rip (A zero) w = 0. Proof. intros. rewrite rip_self. apply rip_zero. Qed.
  Lemma rip_A_comb : forall c n x, rip (A (comb c n)) x = rsum (fun i => c i * rip (A (vk i)) x) n.
  Proof. intros c n x. induction n as [|n IH]; cbn [comb rsum]; [apply A_zero|]. rewrite A_lin, IH. ring. Qed.

  Lemma comb_norm : forall k, (forall j, (j < k)%nat -> bt j <> 0) -> forall c, rip (comb c (S k)) (comb c (S k)) = nrm (S k) c.
  Proof.
    intros k NZ c. rewrite rip_comb. unfold nrm. apply rsum_ext. intros i Hi. rewrite rip_sym, rip_comb.
    rewrite (rsum_ext _ (fun j => if (j =? i)%nat then c i else 0)).
    - rewrite rsum_change by exact Hi. rewrite rsum_const. ring.
    - intros j Hj. rewrite (orth k NZ) by lia. unfold dl. destruct (Nat.eqb_spec j i); [subst; ring|ring].
  Qed.

  Lemma comb_form : forall k, (forall j, (j < k)%nat -> bt j <> 0) -> forall c n, (n <= S k)%nat -> rip (comb c n) (A (comb c n)) = qf n al bt c.
  Proof.
    intros k NZ c n. induction n as [|n IH]; intros Hn; [cbn; rewrite rip_zero; unfold qf; cbn; ring|].
    assert (E : rip (comb c (S n)) (A (comb c (S n))) = rip (comb c n) (A (comb c n)) + 2 * c n * rip (comb c n) (A (vk n)) + c n ^ 2 * al n).
    { cbn [comb]. rewrite rip_lin. rewrite (rip_sym (comb c n) (A (lin _ _ _ _))), (rip_sym (vk n) (A (lin _ _ _ _))), !A_lin.
      rewrite (rip_self (comb c n) (comb c n)), (rip_sym (A (vk n)) (comb c n)), (rip_self (comb c n) (vk n)).
      rewrite (rip_self (vk n)). fold (al n). ring. }
    rewrite E, IH by lia. rewrite rip_comb. unfold qf. cbn [rsum].
    destruct n as [|m].
    - cbn. ring.
    - replace (S (S m) - 1)%nat with (S m) by lia. replace (S m - 1)%nat with m by lia. cbn [rsum].
      rewrite (rsum_0 (fun i => c i * rip (vk i) (A (vk (S m)))) m).
      + rewrite (tri_elem k NZ m (S m)) by lia. destruct (Nat.eqb_spec m (S m)); [lia|]. destruct (Nat.eqb_spec (m + 1) (S m)); [|lia].
        replace (m + 1)%nat with (S m) by lia. ring.
      + intros i Hi. rewrite (tri_elem k NZ i (S m)) by lia. destruct (Nat.eqb_spec i (S m)); [lia|]. destruct (Nat.eqb_spec (i + 1) (S m)); [lia|]. ring.
  Qed.
End Abstract.

(** ** The complex vectors as a real inner product space *)
Section Cvec.
  Variable N : nat.
  Variable X : nat -> nat -> CX.
  Hypothesis HX : hermitian N X.
  Local Notation vecN := (nat -> CX).
  Definition czero : vecN := fun _ => k0.
  Definition clin (a : R) (u : vecN) (b : R) (v : vecN) : vecN := fun i => kadd (kmul (re a) (u i)) (kmul (re b) (v i)).
  Definition crip (u v : vecN) : R := fst (inner CX N u v).
  Definition cA (u : vecN) : vecN := ap CX N X u.

  Lemma crip_sum : forall u v, crip u v = rsum (fun i => fst (u i) * fst (v i) + snd (u i) * snd (v i)) N.
  Proof.
    intros u v. unfold crip, inner. rewrite fst_sum. apply rsum_ext. intros i _. destruct (u i) as [a b], (v i) as [c d]. cbn. ring.
  Qed.
  Lemma crip_lin : forall a u b v w, crip (clin a u b v) w = a * crip u w + b * crip v w.
  Proof.
    intros. rewrite !crip_sum, <- !rsum_scal, <- rsum_add. apply rsum_ext. intros i _. unfold clin.
    destruct (u i) as [x y], (v i) as [x' y'], (w i) as [x'' y'']. cbn. ring.
  Qed.
  Lemma crip_sym : forall u v, crip u v = crip v u.
  Proof. intros. rewrite !crip_sum. apply rsum_ext. intros; ring. Qed.
  Lemma crip_zero : forall w, crip czero w = 0.
  Proof. intros. rewrite crip_sum. apply rsum_0. intros. cbn. ring. Qed.
  Lemma crip_pos : forall u, 0 <= crip u u.
  Proof. intros. rewrite crip_sum. apply rsum_nonneg. intros. nra. Qed.
  Lemma crip_ext : forall u v u' v', (forall i, (i < N)%nat -> u i = u' i) -> (forall i, (i < N)%nat -> v i = v' i) -> crip u v = crip u' v'.
  Proof. intros u v u' v' H1 H2. unfold crip. rewrite (inner_ext CX N u v u' v'); auto. Qed.
  Lemma cA_self : forall u v, crip (cA u) v = crip u (cA v).
  Proof. intros. unfold crip, cA. rewrite ap_self by exact HX. reflexivity. Qed.
  Lemma cA_comb : forall a u b v i, cA (clin a u b v) i = clin a (cA u) b (cA v) i.
  Proof.
    intros. unfold cA, ap, clin. rewrite <- !ksum_mul_l, <- ksum_add. apply ksum_ext. intros; ring.
  Qed.
  Lemma cA_lin : forall a u b v w, crip (cA (clin a u b v)) w = a * crip (cA u) w + b * crip (cA v) w.
  Proof. intros. rewrite <- crip_lin. apply crip_ext; [|auto]. intros; apply cA_comb. Qed.
  Lemma cA_ext : forall u v i, (forall j, (j < N)%nat -> u j = v j) -> cA u i = cA v i.
  Proof. intros. apply ap_ext. auto. Qed.
End Cvec.

(** ** The loops over lists *)
Lemma spmv_list : forall N m b v1 v0, in_range CX m N -> length v1 = N -> length v0 = N ->
  exists v', lanczos_spmv b m v1 v0 = Ok (crip N (cA N (coef m) (vec v1)) (vec v1), v') /\ length v' = N /\
    forall i, (i < N)%nat -> vec v' i = ksub (cA N (coef m) (vec v1) i) (kmul (re b) (vec v0 i)).
Proof.
  intros N m b v1 v0 (Lm & Hc) L1 L0. unfold lanczos_spmv. rewrite Lm.
  set (F := fun st row => obind (aget m row) (fun es => obind (row_mul CX es v1) (fun tmp =>
             obind (aget (snd st) row) (fun y => obind (aget v1 row) (fun x =>
             Ok (fst st + real_dot tmp x, upd (snd st) row (ksub tmp (kmul (re b) y)))))))).
  set (h := cA N (coef m) (vec v1)).
  assert (G : forall d s a y, length y = N -> (s + d <= N)%nat ->
    exists y', ofold F (seq s d) (a, y) = Ok (a + rsum (fun k => real_dot (h (s + k)%nat) (vec v1 (s + k)%nat)) d, y') /\ length y' = N /\
      forall i, (i < N)%nat -> vec y' i = if (s <=? i)%nat && (i <? s + d)%nat then ksub (h i) (kmul (re b) (vec y i)) else vec y i).
  { induction d as [|d IH]; intros s a y Ly Hd.
    - exists y. split; [cbn; f_equal; f_equal; lra|]. split; [exact Ly|]. intros i Hi. destruct (Nat.leb_spec s i), (Nat.ltb_spec i (s + 0)); try lia; reflexivity.
    - cbn [seq ofold]. unfold F at 1. rewrite aget_entries by lia. cbn [obind].
      rewrite row_mul_ok by (intros e He; rewrite L1; apply (Hc s e He)). cbn [obind fst snd]. rewrite !aget_vec by lia. cbn [obind].
      assert (Hh : ksum (fun e => kmul (snd e) (vec v1 (fst e))) (entries m s) = h s).
      { unfold h, cA. rewrite <- act_ap by (intros e He; apply (Hc s e He)). reflexivity. }
      rewrite Hh. destruct (IH (S s) (a + real_dot (h s) (vec v1 s)) (upd y s (ksub (h s) (kmul (re b) (vec y s))))) as (y' & E & Ly' & V'); [rewrite upd_length; exact Ly|lia|].
      exists y'. split; [|split; [exact Ly'|]].
      + rewrite E. f_equal. f_equal. rewrite (rsum_S_l _ d). rewrite Nat.add_0_r. rewrite <- !Rplus_assoc. f_equal.
        apply rsum_ext. intros k _. replace (S s + k)%nat with (s + S k)%nat by lia. reflexivity.
      + intros i Hi. rewrite V' by exact Hi. rewrite vec_upd by lia. destruct (Nat.eqb_spec i s) as [->|Ns].
        * destruct (Nat.leb_spec (S s) s), (Nat.leb_spec s s), (Nat.ltb_spec s (s + S d)); try lia; cbn. reflexivity.
        * destruct (Nat.leb_spec (S s) i), (Nat.leb_spec s i), (Nat.ltb_spec i (S s + d)), (Nat.ltb_spec i (s + S d)); try lia; cbn; reflexivity. }
  destruct (G N O 0 v0 L0 ltac:(lia)) as (y' & E & Ly & Vy). exists y'. split; [|split; [exact Ly|]].
  - rewrite E. f_equal. f_equal. rewrite crip_sum, Rplus_0_l. apply rsum_ext. intros i _. unfold real_dot. cbn [Nat.add]. reflexivity.
  - intros i Hi. rewrite Vy by exact Hi. destruct (Nat.leb_spec 0 i), (Nat.ltb_spec i (0 + N)); try lia; cbn. reflexivity.
Qed.

Lemma axpy_list : forall N a v1 v0, length v1 = N -> length v0 = N ->
  exists v', lanczos_axpy a v1 v0 = Ok (sqrt (rsum (fun i => abs2 (vec v' i)) N), v') /\ length v' = N /\
    forall i, (i < N)%nat -> vec v' i = ksub (vec v0 i) (kmul (re a) (vec v1 i)).
Proof.
  intros N a v1 v0 L1 L0. unfold lanczos_axpy. rewrite L0.
  set (F := fun st i => obind (aget (snd st) i) (fun y => obind (aget v1 i) (fun x =>
             let l := ksub y (kmul (re a) x) in Ok (fst st + abs2 l, upd (snd st) i l)))).
  assert (G : forall d s acc y, length y = N -> (s + d <= N)%nat ->
    exists y', ofold F (seq s d) (acc, y) = Ok (acc + rsum (fun k => abs2 (ksub (vec y (s + k)%nat) (kmul (re a) (vec v1 (s + k)%nat)))) d, y') /\ length y' = N /\
      forall i, (i < N)%nat -> vec y' i = if (s <=? i)%nat && (i <? s + d)%nat then ksub (vec y i) (kmul (re a) (vec v1 i)) else vec y i).
  { induction d as [|d IH]; intros s acc y Ly Hd.
    - exists y. split; [cbn; f_equal; f_equal; lra|]. split; [exact Ly|]. intros i Hi. destruct (Nat.leb_spec s i), (Nat.ltb_spec i (s + 0)); try lia; reflexivity.
    - cbn [seq ofold]. unfold F at 1. cbn [fst snd]. rewrite !aget_vec by lia. cbn [obind]. cbn zeta.
      set (l := ksub (vec y s) (kmul (re a) (vec v1 s))).
      destruct (IH (S s) (acc + abs2 l) (upd y s l)) as (y' & E & Ly' & V'); [rewrite upd_length; exact Ly|lia|].
      exists y'. split; [|split; [exact Ly'|]].
      + rewrite E. f_equal. f_equal. rewrite (rsum_S_l _ d). rewrite Nat.add_0_r. fold l. rewrite <- !Rplus_assoc. f_equal.
        apply rsum_ext. intros k _. rewrite vec_upd by lia. destruct (Nat.eqb_spec (S s + k) s); [lia|]. replace (S s + k)%nat with (s + S k)%nat by lia. reflexivity.
      + intros i Hi. rewrite V' by exact Hi. rewrite vec_upd by lia. destruct (Nat.eqb_spec i s) as [->|Ns].
        * destruct (Nat.leb_spec (S s) s), (Nat.leb_spec s s), (Nat.ltb_spec s (s + S d)); try lia; cbn. reflexivity.
        * destruct (Nat.leb_spec (S s) i), (Nat.leb_spec s i), (Nat.ltb_spec i (S s + d)), (Nat.ltb_spec i (s + S d)); try lia; cbn; reflexivity. }
  destruct (G N O 0 v0 L0 ltac:(lia)) as (y' & E & Ly & Vy).
  assert (Vy' : forall i, (i < N)%nat -> vec y' i = ksub (vec v0 i) (kmul (re a) (vec v1 i))).
  { intros i Hi. rewrite Vy by exact Hi. destruct (Nat.leb_spec 0 i), (Nat.ltb_spec i (0 + N)); try lia; cbn. reflexivity. }
  exists y'. split; [|split; [exact Ly|exact Vy']]. rewrite E. cbn [omap obind fst snd]. do 3 f_equal. rewrite Rplus_0_l.
  apply rsum_ext. intros i Hi. cbn [Nat.add]. rewrite Vy' by exact Hi. reflexivity.
Qed.

(** ** Consequences for the eigenvalues of a tridiagonal matrix *)
Lemma nrm_term : forall n x i, (i < n)%nat -> x i ^ 2 <= nrm n x.
Proof.
  intros n x i H. unfold nrm. induction n as [|n IH]; [lia|]. cbn [rsum].
  assert (0 <= rsum (fun i => x i ^ 2) n) by (apply rsum_nonneg; intros; apply pow2_ge_0).
  destruct (Nat.eq_dec i n) as [->|N]; [lra|]. specialize (IH ltac:(lia)). pose proof (pow2_ge_0 (x n)). lra.
Qed.
Lemma rsum_abs_le : forall f g n, (forall i, (i < n)%nat -> Rabs (f i) <= g i) -> Rabs (rsum f n) <= rsum g n.
Proof.
  intros f g n. induction n as [|n IH]; intros H; cbn [rsum]; [rewrite Rabs_R0; lra|].
  eapply Rle_trans; [apply Rabs_triang|]. specialize (IH ltac:(intros; apply H; lia)). specialize (H n ltac:(lia)). lra.
Qed.
Definition tri_bound (n : nat) (d e : nat -> R) : R := rsum (fun i => Rabs (d i)) n + 2 * rsum (fun i => Rabs (e i)) (n - 1).
Lemma tri_bound_nonneg : forall n d e, 0 <= tri_bound n d e.
Proof.
  intros. unfold tri_bound. assert (0 <= rsum (fun i => Rabs (d i)) n) by (apply rsum_nonneg; intros; apply Rabs_pos).
  assert (0 <= rsum (fun i => Rabs (e i)) (n - 1)) by (apply rsum_nonneg; intros; apply Rabs_pos). lra.
Qed.
Lemma tri_bounded : forall n d e, TridiagProofs.bounded n (qf n d e) (tri_bound n d e).
Proof.
  intros n d e x. unfold qf, tri_bound. eapply Rle_trans; [apply Rabs_triang|]. rewrite Rmult_plus_distr_r. apply Rplus_le_compat.
  - rewrite <- rsum_scal_r. apply rsum_abs_le. intros i Hi. rewrite Rabs_mult, (Rabs_right (x i ^ 2)) by (apply Rle_ge, pow2_ge_0).
    apply Rmult_le_compat_l; [apply Rabs_pos|apply nrm_term; exact Hi].
  - rewrite Rabs_mult, (Rabs_right 2) by lra. rewrite Rmult_assoc. apply Rmult_le_compat_l; [lra|].
    rewrite <- rsum_scal_r. apply rsum_abs_le. intros i Hi. rewrite Rmult_assoc, Rabs_mult. apply Rmult_le_compat_l; [apply Rabs_pos|].
    pose proof (nrm_term n x i ltac:(lia)). pose proof (nrm_term n x (i + 1)%nat ltac:(lia)). apply Rabs_le.
    pose proof (pow2_ge_0 (x i - x (i + 1)%nat)). pose proof (pow2_ge_0 (x i + x (i + 1)%nat)). split; nra.
Qed.

Lemma fold_min : forall t x, (fold_left Rmin t x <= x /\ forall y, In y t -> fold_left Rmin t x <= y) /\ (fold_left Rmin t x = x \/ In (fold_left Rmin t x) t).
Proof.
  induction t as [|y t IH]; intros x; cbn; [split; [split; [lra|tauto]|auto]|]. destruct (IH (Rmin x y)) as ((H1 & H2) & H3).
  split; [split|].
  - eapply Rle_trans; [exact H1|apply Rmin_l].
  - intros z [<-|Hz]; [eapply Rle_trans; [exact H1|apply Rmin_r]|apply H2; exact Hz].
  - destruct H3 as [H3|H3]; [rewrite H3; unfold Rmin; destruct (Rle_dec x y); auto|auto].
Qed.
Lemma fold_max : forall t x, (x <= fold_left Rmax t x /\ forall y, In y t -> y <= fold_left Rmax t x) /\ (fold_left Rmax t x = x \/ In (fold_left Rmax t x) t).
Proof.
  induction t as [|y t IH]; intros x; cbn; [split; [split; [lra|tauto]|auto]|]. destruct (IH (Rmax x y)) as ((H1 & H2) & H3).
  split; [split|].
  - eapply Rle_trans; [apply Rmax_l|exact H1].
  - intros z [<-|Hz]; [eapply Rle_trans; [apply Rmax_r|exact H1]|apply H2; exact Hz].
  - destruct H3 as [H3|H3]; [rewrite H3; unfold Rmax; destruct (Rle_dec x y); auto|auto].
Qed.
Lemma min_coeff_ok : forall l lo, min_coeff l = Ok lo -> In lo l /\ forall y, In y l -> lo <= y.
Proof.
  intros [|x t] lo H; [discriminate|]. cbn in H. injection H as <-. destruct (fold_min t x) as ((H1 & H2) & H3). split.
  - destruct H3 as [H3|H3]; [left; auto|right; exact H3].
  - intros y [<-|Hy]; auto.
Qed.
Lemma max_coeff_ok : forall l hi, max_coeff l = Ok hi -> In hi l /\ forall y, In y l -> y <= hi.
Proof.
  intros [|x t] hi H; [discriminate|]. cbn in H. injection H as <-. destruct (fold_max t x) as ((H1 & H2) & H3). split.
  - destruct H3 as [H3|H3]; [left; auto|right; exact H3].
  - intros y [<-|Hy]; auto.
Qed.

Lemma diag_unit : forall n l i, (i < n)%nat -> diag_form n l (unit_vec i) = arr l i.
Proof.
  intros n l i H. rewrite <- (diag_zero n l (fun _ => 0)) by auto. apply unit_qf. exact H.
Qed.
Lemma diag_between : forall n l lo hi x, length l = n -> (forall y, In y l -> lo <= y <= hi) -> lo * nrm n x <= diag_form n l x <= hi * nrm n x.
Proof.
  intros n l lo hi x L H. unfold diag_form, nrm. rewrite <- !rsum_scal.
  assert (G : forall m, (m <= n)%nat -> rsum (fun i => lo * x i ^ 2) m <= rsum (fun i => arr l i * x i ^ 2) m <= rsum (fun i => hi * x i ^ 2) m).
  { induction m as [|m IH]; intros Hm; cbn [rsum]; [lra|]. specialize (IH ltac:(lia)). pose proof (pow2_ge_0 (x m)).
    destruct (H (arr l m)) as [A B]; [apply nth_In; lia|]. nra. }
  apply G. lia.
Qed.

Section Extremes.
  Variables (n : nat) (q : (nat -> R) -> R) (ev : list R) (delta lo hi : R).
  Hypothesis L : length ev = n.
  Hypothesis NF : near_form n q (diag_form n ev) delta.
  Hypothesis Hlo : min_coeff ev = Ok lo.
  Hypothesis Hhi : max_coeff ev = Ok hi.
  (** every value of the form is between the extremes *)
  Lemma extremes_cover : forall x, (lo - delta) * nrm n x <= q x <= (hi + delta) * nrm n x.
  Proof.
    intros x. destruct NF as (G & Gi & Iso & H). specialize (H (Gi x)). rewrite (iso_inv _ _ _ Iso), (iso_nrm_inv _ _ _ Iso) in H.
    destruct (diag_between n ev lo hi (Gi x) L) as [A B].
    { intros y Hy. split; [apply (min_coeff_ok _ _ Hlo)|apply (max_coeff_ok _ _ Hhi)]; exact Hy. }
    rewrite (iso_nrm_inv _ _ _ Iso) in A, B. revert H. unfold Rabs. destruct (Rcase_abs _); intros; lra.
  Qed.
  (** and the extremes are values of the form *)
  Lemma extreme_value : forall y, In y ev -> exists x, nrm n x = 1 /\ Rabs (y - q x) <= delta.
  Proof.
    intros y Hy. destruct NF as (G & Gi & Iso & H). destruct (In_nth _ _ 0 Hy) as (i & Hi & E). rewrite L in Hi. exists (G (unit_vec i)).
    rewrite (iso_nrm _ _ _ Iso), unit_nrm by exact Hi. split; [reflexivity|]. specialize (H (unit_vec i)).
    rewrite diag_unit, unit_nrm in H by exact Hi. unfold arr in H. rewrite E in H. lra.
  Qed.
End Extremes.

(** ** The whole procedure *)
Lemma vec_map_list : forall (f : CX -> CX) l i, (i < length l)%nat -> vec (map f l) i = f (vec l i).
Proof. intros f l i H. unfold vec. rewrite (nth_indep _ k0 (f k0)) by (rewrite map_length; exact H). apply map_nth. Qed.

Section Run.
  Variables (eps : R) (N : nat) (m : csr CX) (v : list CX).
  Hypothesis Heps : 0 <= eps.
  Hypothesis Hm : in_range CX m N.
  Hypothesis HX : hermitian N (coef m).
  Hypothesis Lv : length v = N.
  Hypothesis Uv : crip N (vec v) (vec v) = 1.
  Let V := nat -> CX.
  Let Am := cA N (coef m).
  Let lvk := vk V czero clin (crip N) Am (vec v).
  Let lpk := pk V czero clin (crip N) Am (vec v).
  Let lbp := bp V czero clin (crip N) Am (vec v).
  Let lwk := wk V czero clin (crip N) Am (vec v).
  Definition la := al V czero clin (crip N) Am (vec v).
  Definition lb := bt V czero clin (crip N) Am (vec v).
  Let P1 := crip_lin N. Let P2 := crip_sym N. Let P3 := crip_zero N. Let P4 := crip_pos N.
  Let P5 := cA_self N (coef m) HX. Let P6 := cA_lin N (coef m).

  Definition tracks (k : nat) (st : lstate) : Prop :=
    length (l_v0 st) = N /\ length (l_v1 st) = N /\ (forall i, (i < N)%nat -> vec (l_v1 st) i = lvk k i) /\
    (forall i, (i < N)%nat -> vec (l_v0 st) i = lpk k i) /\ l_alpha st = map la (seq 0 k) /\ l_beta st = map lb (seq 0 k) /\
    (forall j, (j < k)%nat -> lb j <> 0).

  Lemma last_beta : forall k, last (map lb (seq 0 k)) 0 = lbp k.
  Proof.
    intros [|k]; [reflexivity|]. rewrite seq_S, map_app. cbn [map app Nat.add]. rewrite last_last. unfold lbp. rewrite bp_S. reflexivity.
  Qed.

  Lemma arr_map : forall f k i, (i < k)%nat -> arr (map f (seq 0 k)) i = f i.
  Proof. intros f k i H. unfold arr. rewrite (nth_indep _ 0 (f O)) by (rewrite map_length, seq_length; exact H). rewrite map_nth, seq_nth by exact H. reflexivity. Qed.
  Lemma qf_map : forall k x, qf k (arr (map la (seq 0 k))) (arr (map lb (seq 0 k))) x = qf k la lb x.
  Proof.
    intros k x. unfold qf. f_equal; [|f_equal]; apply rsum_ext; intros i Hi; rewrite arr_map by lia; reflexivity.
  Qed.

  Lemma turn_eq : forall k st, tracks k st -> exists v0,
    lanczos_turn eps m st =
      obind (tridiagonal_eigenvalues eps (map la (seq 0 (S k))) (map lb (seq 0 (S k)))) (fun ev =>
      obind (min_coeff ev) (fun lo => obind (max_coeff ev) (fun hi =>
      Ok (LState (l_v1 st) v0 (map la (seq 0 (S k))) (map lb (seq 0 (S k))) (Some (lo, hi)), lo, hi)))) /\
    (lb k <> 0 -> forall prev, tracks (S k) (LState (l_v1 st) v0 (map la (seq 0 (S k))) (map lb (seq 0 (S k))) prev)).
  Proof.
    intros k st (L0 & L1 & E1 & E0 & Ea & Eb & NZ). unfold lanczos_turn. rewrite Eb, last_beta.
    destruct (spmv_list N m (lbp k) (l_v1 st) (l_v0 st) Hm L1 L0) as (y & Ey & Ly & Vy). rewrite Ey. cbn [obind fst snd].
    assert (A1 : forall i, (i < N)%nat -> cA N (coef m) (vec (l_v1 st)) i = Am (lvk k) i) by (intros; apply cA_ext; exact E1).
    assert (Ra : crip N (cA N (coef m) (vec (l_v1 st))) (vec (l_v1 st)) = la k).
    { rewrite (crip_ext N _ _ (Am (lvk k)) (lvk k)) by auto. rewrite crip_sym. reflexivity. }
    rewrite Ra. destruct (axpy_list N (la k) (l_v1 st) y L1 Ly) as (w & Ew & Lw & Vw). rewrite Ew. cbn [obind fst snd].
    assert (W : forall i, (i < N)%nat -> vec w i = lwk k i).
    { intros i Hi. rewrite Vw, Vy by exact Hi. rewrite A1, E0, E1 by exact Hi. 
      change (lwk k i) with (clin 1 (clin 1 (Am (lvk k)) (- lbp k) (lpk k)) (- la k) (lvk k) i). unfold clin.
      destruct (Am (lvk k) i) as [x1 x2], (lpk k i) as [y1 y2], (lvk k i) as [z1 z2].
      cbn. unfold cx_sub, cx_add, cx_opp, cx_mul, re, mk. cbn [fst snd]. f_equal; ring. }
    assert (Rb : sqrt (rsum (fun i => abs2 (vec w i)) N) = lb k).
    { unfold lb, bt. f_equal. rewrite crip_sum. apply rsum_ext. intros i Hi. rewrite W by exact Hi. unfold abs2. fold Am (lwk k). destruct (lwk k i); cbn; ring. }
    rewrite Rb, Ea.
    replace (map la (seq 0 k) ++ [la k]) with (map la (seq 0 (S k))) by (rewrite seq_S, map_app; reflexivity).
    replace (map lb (seq 0 k) ++ [lb k]) with (map lb (seq 0 (S k))) by (rewrite seq_S, map_app; reflexivity).
    eexists. split; [reflexivity|].
    intros Hb prev. unfold tracks. cbn [l_v0 l_v1 l_alpha l_beta]. rewrite map_length. repeat split; auto.
    - intros i Hi. rewrite vec_map_list by lia. rewrite W by exact Hi. unfold lvk. rewrite vk_S. fold Am.
      change (wk V czero clin (crip N) Am (vec v) k) with (lwk k). change (bt V czero clin (crip N) Am (vec v) k) with (lb k). unfold clin.
      destruct (lwk k i) as [x1 x2]. cbn. unfold cx_add, cx_mul, re, mk. cbn [fst snd]. f_equal; ring.
    - intros i Hi. rewrite E1 by exact Hi. unfold lpk. rewrite pk_S. reflexivity.
    - intros j Hj. destruct (Nat.eq_dec j k) as [->|]; [exact Hb|apply NZ; lia].
  Qed.

  Lemma turn_tracks : forall k st, tracks k st ->
    (lanczos_turn eps m st = Throw) \/
    exists st' lo hi ev, lanczos_turn eps m st = Ok (st', lo, hi) /\
      tridiagonal_eigenvalues eps (map la (seq 0 (S k))) (map lb (seq 0 (S k))) = Ok ev /\
      min_coeff ev = Ok lo /\ max_coeff ev = Ok hi /\ last (l_beta st') 0 = lb k /\ (lb k <> 0 -> tracks (S k) st').
  Proof.
    intros k st H. destruct (turn_eq k st H) as (v0 & E & Tn). rewrite E.
    pose proof (tridiagonal_ok eps (map la (seq 0 (S k))) (map lb (seq 0 (S k)))
      (tri_bound (S k) (arr (map la (seq 0 (S k)))) (arr (map lb (seq 0 (S k))))) Heps) as T. rewrite !map_length, !seq_length in T.
    specialize (T eq_refl (tri_bound_nonneg _ _ _) (tri_bounded _ _ _)).
    destruct T as [T|(ev & T & Lev & _)]; rewrite T; cbn [obind]; [left; reflexivity|right].
    destruct ev as [|x t]; [discriminate|]. cbn [min_coeff max_coeff obind].
    eexists _, _, _, _. split; [reflexivity|]. split; [reflexivity|]. split; [reflexivity|]. split; [reflexivity|]. cbn [l_beta]. split.
    { rewrite seq_S, map_app. cbn [map]. rewrite last_last. f_equal. }
    intros Hb. apply Tn. exact Hb.
  Qed.

  Lemma loop_tracks : forall limit i precision k st, tracks k st ->
    (lanczos_loop eps limit i m precision st = Throw) \/
    (lanczos_loop eps limit i m precision st = UB /\ exists j, (k <= j < k + limit)%nat /\ lb j = 0 /\ forall l, (l < j)%nat -> lb l <> 0) \/
    exists j ev lo hi, lanczos_loop eps limit i m precision st = Ok (lo, hi, i + j)%nat /\ (forall l, (l < k + j)%nat -> lb l <> 0) /\
      tridiagonal_eigenvalues eps (map la (seq 0 (S (k + j)))) (map lb (seq 0 (S (k + j)))) = Ok ev /\
      min_coeff ev = Ok lo /\ max_coeff ev = Ok hi.
  Proof.
    induction limit as [|limit IH]; intros i precision k st H; [left; reflexivity|]. cbn [lanczos_loop].
    destruct (turn_tracks k st H) as [T|(st' & lo & hi & ev & T & Tev & Tlo & Thi & Tb & Tn)]; rewrite T; cbn [obind]; [left; reflexivity|].
    destruct (converged _ _ lo && converged _ _ hi)%bool.
    - right; right. exists O, ev, lo, hi. rewrite !Nat.add_0_r. split; [reflexivity|]. split; [apply H|]. auto.
    - rewrite Tb. unfold is0. destruct (Req_EM_T (lb k) 0) as [Z|Z].
      + right; left. split; [reflexivity|]. exists k. split; [lia|]. split; [exact Z|apply H].
      + destruct (IH (i + 1)%nat precision (S k) st' (Tn Z)) as [R|[(R & j & Hj & Hz)|(j & ev' & lo' & hi' & R & NZ & R1 & R2 & R3)]].
        * left; exact R.
        * right; left. split; [exact R|]. exists j. split; [lia|exact Hz].
        * right; right. exists (S j), ev', lo', hi'. replace (k + S j)%nat with (S k + j)%nat by lia. replace (i + S j)%nat with (i + 1 + j)%nat by lia. auto.
  Qed.

  (** the results against the Hamiltonian *)
  Lemma result_ok : forall n ev lo hi M, (forall l, (l < n)%nat -> lb l <> 0) ->
    tridiagonal_eigenvalues eps (map la (seq 0 (S n))) (map lb (seq 0 (S n))) = Ok ev -> min_coeff ev = Ok lo -> max_coeff ev = Ok hi ->
    0 <= M -> (forall x, Rabs (crip N x (Am x)) <= M * crip N x x) ->
    let delta := M * ((1 + 2 * eps) ^ n - 1) in
    (forall y, In y ev -> exists x, crip N x x = 1 /\ Rabs (y - crip N x (Am x)) <= delta) /\
    lo - delta <= crip N (vec v) (Am (vec v)) <= hi + delta.
  Proof.
    intros n ev lo hi M NZ T Tlo Thi HM B delta.
    set (cb := fun c => comb V czero clin (crip N) Am (vec v) c (S n)).
    assert (Cn : forall c, crip N (cb c) (cb c) = nrm (S n) c).
    { intros c. apply (comb_norm V czero clin (crip N) Am P1 P2 P3 P4 P5 (vec v) Uv n NZ c). }
    assert (Cf : forall c, crip N (cb c) (Am (cb c)) = qf (S n) la lb c).
    { intros c. apply (comb_form V czero clin (crip N) Am P1 P2 P3 P4 P5 P6 (vec v) Uv n NZ c (S n)). lia. }
    pose proof (tridiagonal_ok eps (map la (seq 0 (S n))) (map lb (seq 0 (S n))) M Heps) as K. rewrite !map_length, !seq_length in K.
    destruct (K eq_refl HM) as [K1|(ev' & K1 & K2 & K3)].
    { intros x. rewrite qf_map, <- Cf, <- Cn. apply B. }
    { rewrite K1 in T. discriminate. }
    rewrite K1 in T. injection T as ->. replace (S n - 1)%nat with n in K3 by lia. fold delta in K3. split.
    - intros y Hy. destruct (extreme_value (S n) _ ev delta K2 K3 y Hy) as (x & Nx & Hx). exists (cb x). rewrite Cn, Cf. split; [exact Nx|].
      rewrite qf_map in Hx. exact Hx.
    - pose proof (extremes_cover (S n) _ ev delta lo hi K2 K3 Tlo Thi (unit_vec 0)) as E. rewrite unit_nrm, unit_qf, arr_map in E by lia.
      change (la O) with (crip N (vec v) (Am (vec v))) in E. lra.
  Qed.
End Run.
