(* The implicit QR iteration turns a tridiagonal form into a diagonal one by rotations. *)
From Verif Require Import Base RSum Lanczos.
From Coq Require Import Reals Lra FunctionalExtensionality.
Local Open Scope R_scope.

Definition arr (l : list R) (i : nat) : R := nth i l 0.
Definition nrm (n : nat) (x : nat -> R) : R := rsum (fun i => x i ^ 2) n.
(** The quadratic form of the symmetric tridiagonal matrix with diagonal [d] and subdiagonal [e]. *)
Definition qf (n : nat) (d e x : nat -> R) : R :=
  rsum (fun i => d i * x i ^ 2) n + 2 * rsum (fun i => e i * x i * x (i + 1)%nat) (n - 1).

Lemma nrm_nonneg : forall n x, 0 <= nrm n x.
Proof. intros. apply rsum_nonneg. intros. apply pow2_ge_0. Qed.

Lemma rsum_change : forall n f a v, (a < n)%nat -> rsum (fun i => if (i =? a)%nat then v else f i) n = rsum f n - f a + v.
Proof.
  induction n as [|n IH]; intros f a v H; [lia|]. cbn [rsum]. destruct (Nat.eqb_spec n a) as [->|N].
  - rewrite (rsum_ext _ f); [lra|]. intros i Hi. destruct (Nat.eqb_spec i a); [lia|reflexivity].
  - rewrite IH by lia. lra.
Qed.
Lemma rsum_diff : forall L n f g, NoDup L -> (forall j, In j L -> (j < n)%nat) -> (forall i, (i < n)%nat -> ~ In i L -> f i = g i) ->
  rsum f n = rsum g n + fold_right Rplus 0 (map (fun j => f j - g j) L).
Proof.
  induction L as [|a L IH]; intros n f g ND B H.
  - cbn. rewrite (rsum_ext f g); [lra|]. intros; apply H; auto.
  - inversion ND as [|? ? Na ND']; subst. rewrite (IH n f (fun i => if (i =? a)%nat then f a else g i)); auto.
    + rewrite rsum_change by (apply B; left; auto). cbn [map fold_right].
      assert (E : map (fun j => f j - (if (j =? a)%nat then f a else g j)) L = map (fun j => f j - g j) L).
      { apply map_ext_in. intros j Hj. destruct (Nat.eqb_spec j a); [subst; contradiction|reflexivity]. }
      rewrite E. lra.
    + intros j Hj. apply B. right; auto.
    + intros i Hi Hn. destruct (Nat.eqb_spec i a) as [->|N]; [reflexivity|]. apply H; auto. intros [Q|Q]; [congruence|contradiction].
Qed.

(** ** Rotations *)
Definition rot (c s : R) (k : nat) (x : nat -> R) : nat -> R := fun i =>
  if (i =? k)%nat then c * x k + s * x (k + 1)%nat else if (i =? k + 1)%nat then - s * x k + c * x (k + 1)%nat else x i.

Lemma rot_k : forall c s k x, rot c s k x k = c * x k + s * x (k + 1)%nat.
Proof. intros. unfold rot. rewrite Nat.eqb_refl. reflexivity. Qed.
Lemma rot_k1 : forall c s k x, rot c s k x (k + 1)%nat = - s * x k + c * x (k + 1)%nat.
Proof. intros. unfold rot. destruct (Nat.eqb_spec (k + 1) k); [lia|]. rewrite Nat.eqb_refl. reflexivity. Qed.
Lemma rot_o : forall c s k x i, i <> k -> i <> (k + 1)%nat -> rot c s k x i = x i.
Proof. intros c s k x i H1 H2. unfold rot. destruct (Nat.eqb_spec i k); [lia|]. destruct (Nat.eqb_spec i (k + 1)); [lia|reflexivity]. Qed.

Lemma rot_nrm : forall n c s k x, c * c + s * s = 1 -> (k + 1 < n)%nat -> nrm n (rot c s k x) = nrm n x.
Proof.
  intros n c s k x H Hk. unfold nrm. rewrite (rsum_diff [k; (k + 1)%nat] n _ (fun i => x i ^ 2)).
  - cbn [map fold_right]. rewrite rot_k, rot_k1. 
    transitivity (rsum (fun i => x i ^ 2) n + (c * c + s * s - 1) * (x k ^ 2 + x (k + 1)%nat ^ 2)); [ring|rewrite H; ring].
  - repeat constructor; cbn; lia.
  - intros j [<-|[<-|[]]]; lia.
  - intros i _ Hi. rewrite rot_o; [reflexivity| |]; intros ->; apply Hi; cbn; auto.
Qed.
Lemma rot_inv : forall c s k x, c * c + s * s = 1 -> rot c s k (rot c (- s) k x) = x.
Proof.
  intros c s k x H. apply functional_extensionality. intros i. destruct (Nat.eq_dec i k) as [->|N1].
  - rewrite rot_k, rot_k, rot_k1. transitivity ((c * c + s * s) * x k); [ring|rewrite H; ring].
  - destruct (Nat.eq_dec i (k + 1)) as [->|N2].
    + rewrite rot_k1, rot_k, rot_k1. transitivity ((c * c + s * s) * x (k + 1)%nat); [ring|rewrite H; ring].
    + rewrite !rot_o by auto. reflexivity.
Qed.
Lemma rot_lin : forall c s k a x y, rot c s k (fun i => a * x i + y i) = (fun i => a * rot c s k x i + rot c s k y i).
Proof.
  intros. apply functional_extensionality. intros i. unfold rot. destruct (i =? k)%nat; [ring|]. destruct (i =? k + 1)%nat; ring.
Qed.

(** ** One turn of the bulge chase on the forms *)
Section Turn.
  Variable n : nat.
  Variables d e : nat -> R.
  Variables c s zb : R.
  Variable k : nat.
  Hypothesis Hk : (k + 1 < n)%nat.
  Let l := if (k =? 0)%nat then 0 else e (k - 1)%nat.
  Let r := if (k + 2 <? n)%nat then e (k + 1)%nat else 0.
  Hypothesis Hz : s * l + c * zb = 0.
  Hypothesis Hz0 : k = O -> zb = 0.
  Let sdk := s * d k + c * e k.
  Let dkp1 := s * e k + c * d (k + 1)%nat.
  Definition turn_d (i : nat) : R :=
    if (i =? k)%nat then c * (c * d k - s * e k) - s * (c * e k - s * d (k + 1)%nat)
    else if (i =? k + 1)%nat then s * sdk + c * dkp1 else d i.
  Definition turn_e (i : nat) : R :=
    if (i =? k)%nat then c * sdk - s * dkp1
    else if (i + 1 =? k)%nat then c * l - s * zb else if (i =? k + 1)%nat then c * e (k + 1)%nat else e i.

  Lemma turn_form : forall y,
    qf n turn_d turn_e y + 2 * (- s * r) * y k * y (k + 2)%nat
    = qf n d e (rot c s k y) + 2 * zb * y (k - 1)%nat * rot c s k y (k + 1)%nat.
  Proof.
    intros y. unfold qf.
    assert (D : rsum (fun i => turn_d i * y i ^ 2) n = rsum (fun i => d i * rot c s k y i ^ 2) n
       + (turn_d k * y k ^ 2 - d k * rot c s k y k ^ 2) + (turn_d (k + 1)%nat * y (k + 1)%nat ^ 2 - d (k + 1)%nat * rot c s k y (k + 1)%nat ^ 2)).
    { rewrite (rsum_diff [k; (k + 1)%nat] n _ (fun i => d i * rot c s k y i ^ 2)).
      - cbn [map fold_right]. ring.
      - repeat constructor; cbn; lia.
      - intros j [<-|[<-|[]]]; lia.
      - intros i _ Hi. rewrite rot_o by (intros ->; apply Hi; cbn; auto). unfold turn_d.
        destruct (Nat.eqb_spec i k); [exfalso; apply Hi; cbn; auto|]. destruct (Nat.eqb_spec i (k + 1)); [exfalso; apply Hi; cbn; auto|]. reflexivity. }
    rewrite D. clear D.
    assert (Td : turn_d k = c * (c * d k - s * e k) - s * (c * e k - s * d (k + 1)%nat)) by (unfold turn_d; rewrite Nat.eqb_refl; reflexivity).
    assert (Td1 : turn_d (k + 1)%nat = s * sdk + c * dkp1).
    { unfold turn_d. destruct (Nat.eqb_spec (k + 1) k); [lia|]. rewrite Nat.eqb_refl. reflexivity. }
    assert (Te : turn_e k = c * sdk - s * dkp1) by (unfold turn_e; rewrite Nat.eqb_refl; reflexivity).
    assert (Te1 : turn_e (k + 1)%nat = c * e (k + 1)%nat).
    { unfold turn_e. destruct (Nat.eqb_spec (k + 1) k); [lia|]. destruct (Nat.eqb_spec (k + 1 + 1) k); [lia|]. rewrite Nat.eqb_refl. reflexivity. }
    assert (Tel : k <> O -> turn_e (k - 1)%nat = c * l - s * zb).
    { intros H. unfold turn_e. destruct (Nat.eqb_spec (k - 1) k); [lia|]. destruct (Nat.eqb_spec (k - 1 + 1) k); [reflexivity|lia]. }
    assert (Eo : forall i, i <> k -> i <> (k + 1)%nat -> i <> (k - 1)%nat -> turn_e i * y i * y (i + 1)%nat = e i * rot c s k y i * rot c s k y (i + 1)%nat).
    { intros i H1 H2 H3. rewrite !rot_o by lia. unfold turn_e.
      destruct (Nat.eqb_spec i k); [lia|]. destruct (Nat.eqb_spec (i + 1) k); [lia|]. destruct (Nat.eqb_spec i (k + 1)); [lia|]. reflexivity. }
    rewrite Td, Td1, rot_k, rot_k1. set (S0 := rsum (fun i => d i * rot c s k y i ^ 2) n).
    set (G := fun i => e i * rot c s k y i * rot c s k y (i + 1)%nat) in *.
    set (F := fun i => turn_e i * y i * y (i + 1)%nat) in *.
    assert (Gk : G k = e k * (c * y k + s * y (k + 1)%nat) * (- s * y k + c * y (k + 1)%nat)) by (unfold G; rewrite rot_k, rot_k1; reflexivity).
    assert (Gk1 : G (k + 1)%nat = e (k + 1)%nat * (- s * y k + c * y (k + 1)%nat) * y (k + 2)%nat).
    { unfold G. rewrite rot_k1. replace (k + 1 + 1)%nat with (k + 2)%nat by lia. rewrite rot_o by lia. reflexivity. }
    assert (Gl : k <> O -> G (k - 1)%nat = l * y (k - 1)%nat * (c * y k + s * y (k + 1)%nat)).
    { intros H. unfold G. rewrite rot_o by lia. replace (k - 1 + 1)%nat with k by lia. rewrite rot_k. unfold l. rewrite (proj2 (Nat.eqb_neq k 0) H). reflexivity. }
    assert (Fk : F k = (c * sdk - s * dkp1) * y k * y (k + 1)%nat) by (unfold F; rewrite Te; reflexivity).
    assert (Fk1 : F (k + 1)%nat = c * e (k + 1)%nat * y (k + 1)%nat * y (k + 2)%nat).
    { unfold F. rewrite Te1. replace (k + 1 + 1)%nat with (k + 2)%nat by lia. reflexivity. }
    assert (Fl : k <> O -> F (k - 1)%nat = (c * l - s * zb) * y (k - 1)%nat * y k).
    { intros H. unfold F. rewrite Tel by exact H. replace (k - 1 + 1)%nat with k by lia. reflexivity. }
    assert (X : forall L, NoDup L -> (forall j, In j L -> (j < n - 1)%nat) -> (forall i, (i < n - 1)%nat -> ~ In i L -> i <> k /\ i <> (k + 1)%nat /\ (i <> (k - 1)%nat)) ->
      rsum F (n - 1) = rsum G (n - 1) + fold_right Rplus 0 (map (fun j => F j - G j) L)).
    { intros L H1 H2 H3. apply rsum_diff; auto. intros i Hi Hn. destruct (H3 i Hi Hn) as (A & B & C). apply Eo; auto. }
    unfold sdk, dkp1 in *. unfold r.
    destruct (Nat.eq_dec k 0) as [K0|K0]; destruct (Nat.ltb_spec (k + 2) n) as [K2|K2].
    - rewrite (Hz0 K0). rewrite (X [k; (k + 1)%nat]).
      + cbn [map fold_right]. rewrite Fk, Fk1, Gk, Gk1. ring.
      + repeat constructor; cbn; lia.
      + intros j [<-|[<-|[]]]; lia.
      + intros i Hi Hn. cbn in Hn. lia.
    - rewrite (Hz0 K0). rewrite (X [k]).
      + cbn [map fold_right]. rewrite Fk, Gk. ring.
      + repeat constructor; cbn; lia.
      + intros j [<-|[]]; lia.
      + intros i Hi Hn. cbn in Hn. lia.
    - rewrite (X [(k - 1)%nat; k; (k + 1)%nat]).
      + cbn [map fold_right]. rewrite Fk, Fk1, Fl, Gk, Gk1, Gl by exact K0.
        match goal with |- ?A = ?B => assert (Q : A = B - 2 * (s * l + c * zb) * y (k - 1)%nat * y (k + 1)%nat) by ring end.
        rewrite Q, Hz. ring.
      + repeat constructor; cbn; lia.
      + intros j [<-|[<-|[<-|[]]]]; lia.
      + intros i Hi Hn. cbn in Hn. lia.
    - rewrite (X [(k - 1)%nat; k]).
      + cbn [map fold_right]. rewrite Fk, Fl, Gk, Gl by exact K0.
        match goal with |- ?A = ?B => assert (Q : A = B - 2 * (s * l + c * zb) * y (k - 1)%nat * y (k + 1)%nat) by ring end.
        rewrite Q, Hz. ring.
      + repeat constructor; cbn; lia.
      + intros j [<-|[<-|[]]]; lia.
      + intros i Hi Hn. cbn in Hn. lia.
  Qed.
End Turn.

(** ** Givens rotations *)
Lemma is0_spec : forall x, is0 x = true <-> x = 0.
Proof. intros x. unfold is0. destruct (Req_EM_T x 0); split; intros; auto; try discriminate; contradiction. Qed.
Lemma givens_ok : forall p q, let (c, s) := make_givens p q in c * c + s * s = 1 /\ s * p + c * q = 0.
Proof.
  assert (U : forall t, 1 + t * t > 0) by (intros; nra).
  assert (V : forall t, sqrt (1 + t * t) <> 0) by (intros t H; apply sqrt_eq_0 in H; specialize (U t); lra).
  assert (W : forall t, sqrt (1 + t * t) * sqrt (1 + t * t) = 1 + t * t) by (intros; apply sqrt_sqrt; specialize (U t); lra).
  intros p q. unfold make_givens. destruct (is0 q) eqn:Q.
  { apply is0_spec in Q. subst q. unfold ltb. destruct (Rlt_dec p 0); lra. }
  destruct (is0 p) eqn:P.
  { apply is0_spec in P. subst p. unfold ltb. destruct (Rlt_dec q 0); lra. }
  assert (q <> 0) by (intros H; apply is0_spec in H; congruence). assert (p <> 0) by (intros H'; apply is0_spec in H'; congruence).
  destruct (ltb (Rabs q) (Rabs p)); cbn zeta.
  - specialize (W (q / p)). specialize (V (q / p)). set (u0 := sqrt (1 + q / p * (q / p))) in *.
    assert (exists u, (if ltb p 0 then - u0 else u0) = u /\ u <> 0 /\ u * u = 1 + q / p * (q / p)) as (u & -> & Hu & Hu2).
    { destruct (ltb p 0); eexists; (split; [reflexivity|]); split; lra. }
    split; [|field; auto].
    transitivity ((1 + q / p * (q / p)) / (u * u)); [field; auto|]. rewrite <- Hu2. field. auto.
  - specialize (W (p / q)). specialize (V (p / q)). set (u0 := sqrt (1 + p / q * (p / q))) in *.
    assert (exists u, (if ltb q 0 then - u0 else u0) = u /\ u <> 0 /\ u * u = 1 + p / q * (p / q)) as (u & -> & Hu & Hu2).
    { destruct (ltb q 0); eexists; (split; [reflexivity|]); split; lra. }
    split; [|field; auto].
    transitivity ((1 + p / q * (p / q)) / (u * u)); [field; auto|]. rewrite <- Hu2. field. auto.
Qed.

(** ** Isometries *)
Record isometry (n : nat) (G Gi : (nat -> R) -> nat -> R) : Prop := {
  iso_nrm : forall x, nrm n (G x) = nrm n x;
  iso_inv : forall x, G (Gi x) = x;
  iso_lin : forall a x y, G (fun i => a * x i + y i) = (fun i => a * G x i + G y i)
}.
Lemma iso_nrm_inv : forall n G Gi, isometry n G Gi -> forall x, nrm n (Gi x) = nrm n x.
Proof. intros n G Gi H x. rewrite <- (iso_nrm _ _ _ H (Gi x)), (iso_inv _ _ _ H). reflexivity. Qed.
Lemma iso_id : forall n, isometry n (fun x => x) (fun x => x).
Proof. intros; constructor; auto. Qed.
Lemma iso_comp : forall n G Gi F Fi, isometry n G Gi -> isometry n F Fi -> isometry n (fun x => G (F x)) (fun x => Fi (Gi x)).
Proof.
  intros n G Gi F Fi H K. constructor.
  - intros x. rewrite (iso_nrm _ _ _ H), (iso_nrm _ _ _ K). reflexivity.
  - intros x. rewrite (iso_inv _ _ _ K), (iso_inv _ _ _ H). reflexivity.
  - intros a x y. rewrite (iso_lin _ _ _ K), (iso_lin _ _ _ H). reflexivity.
Qed.
Lemma iso_rot : forall n c s k, c * c + s * s = 1 -> (k + 1 < n)%nat -> isometry n (rot c s k) (rot c (- s) k).
Proof. intros n c s k H Hk. constructor; [intros; apply rot_nrm; auto|intros; apply rot_inv; auto|apply rot_lin]. Qed.

(** [q'] is [q] in other coordinates, up to [delta]. *)
Definition near_form (n : nat) (q q' : (nat -> R) -> R) (delta : R) : Prop :=
  exists G Gi, isometry n G Gi /\ forall x, Rabs (q' x - q (G x)) <= delta * nrm n x.
Lemma near_refl : forall n q, near_form n q q 0.
Proof. intros n q. exists (fun x => x), (fun x => x). split; [apply iso_id|]. intros x. rewrite Rminus_diag_eq, Rabs_R0 by reflexivity. lra. Qed.
Lemma near_trans : forall n q q' q'' a b, near_form n q q' a -> near_form n q' q'' b -> near_form n q q'' (a + b).
Proof.
  intros n q q' q'' a b (G & Gi & H & HG) (F & Fi & K & KF). exists (fun x => G (F x)), (fun x => Fi (Gi x)).
  split; [apply iso_comp; auto|]. intros x. replace (q'' x - q (G (F x))) with ((q'' x - q' (F x)) + (q' (F x) - q (G (F x)))) by ring.
  eapply Rle_trans; [apply Rabs_triang|]. specialize (HG (F x)). specialize (KF x). rewrite (iso_nrm _ _ _ K) in HG. lra.
Qed.

(** ** The loop of one QR step *)
Lemma aget_arr : forall l i, (i < length l)%nat -> aget l i = Ok (arr l i).
Proof.
  intros l i H. unfold aget, arr. destruct (nth_error l i) eqn:E; [|apply nth_error_None in E; lia].
  rewrite (nth_error_nth _ _ _ E). reflexivity.
Qed.
Lemma arr_upd : forall l i v j, (i < length l)%nat -> arr (upd l i v) j = if (j =? i)%nat then v else arr l j.
Proof. intros l i v j H. unfold arr. rewrite nth_upd by exact H. rewrite Nat.eqb_sym. reflexivity. Qed.

Section Step.
  Variable n start stop : nat.
  Hypothesis Hss : (start < stop)%nat.
  Hypothesis Hsn : (stop < n)%nat.

  (** At the head of turn [k]: the form with the bulge [b] is the form we started with, turned. *)
  Definition head (d0 e0 : nat -> R) (k : nat) (st : list R * list R * R * R) : Prop :=
    let '(d, e, x, z) := st in
    length d = n /\ length e = n /\ (start = O \/ arr e (start - 1) = 0) /\ ((stop + 1 < n)%nat -> arr e stop = 0) /\
    (forall i, ((i < start)%nat \/ (stop <= i)%nat) -> arr e i = e0 i) /\
    (k <> start -> (k < stop)%nat -> x = arr e (k - 1)) /\
    exists G Gi, isometry n G Gi /\
      forall y, qf n (arr d) (arr e) y + (if (k =? start)%nat then 0 else if (k =? stop)%nat then 0 else 2 * z * y (k - 1)%nat * y (k + 1)%nat) = qf n d0 e0 (G y).

  Lemma turn_ok : forall d0 e0 k st, (start <= k < stop)%nat -> head d0 e0 k st ->
    exists st', qr_turn start stop st k = Ok st' /\ head d0 e0 (k + 1) st'.
  Proof.
    intros d0 e0 k [[[d e] x] z] Hk (Ld & Le & Z1 & Z2 & Out & Hx & G & Gi & Iso & Q).
    unfold qr_turn. pose proof (givens_ok x z) as GV. destruct (make_givens x z) as [c s]. destruct GV as (U & Rt).
    rewrite (aget_arr d k), (aget_arr d (k + 1)), (aget_arr e k) by lia. cbn [obind].
    set (sdk := s * arr d k + c * arr e k). set (dkp1 := s * arr e k + c * arr d (k + 1)).
    set (d' := upd (upd d k (c * (c * arr d k - s * arr e k) - s * (c * arr e k - s * arr d (k + 1)))) (k + 1) (s * sdk + c * dkp1)).
    set (e1 := upd e k (c * sdk - s * dkp1)).
    assert (Le1 : length e1 = n) by (unfold e1; rewrite upd_length; exact Le).
    set (zb := if (k =? start)%nat then 0 else z).
    set (lft := if (k =? 0)%nat then 0 else arr e (k - 1)).
    assert (HL : k = start -> lft = 0).
    { intros ->. unfold lft. destruct (Nat.eqb_spec start 0); [reflexivity|]. destruct Z1; [lia|auto]. }
    assert (HZ : s * lft + c * zb = 0).
    { unfold zb. destruct (Nat.eqb_spec k start) as [E|N]; [rewrite HL by exact E; ring|].
      unfold lft. destruct (Nat.eqb_spec k 0); [lia|]. rewrite <- (Hx N) by lia. exact Rt. }
    assert (HZ0 : k = O -> zb = 0) by (intros ->; unfold zb; destruct (Nat.eqb_spec 0 start); [reflexivity|lia]).
    (* the second array *)
    set (e2 := if (start <? k)%nat then upd e1 (k - 1) (c * arr e (k - 1) - s * z) else e1).
    assert (E2 : (if (start <? k)%nat then obind (aget e1 (k - 1)) (fun p => Ok (upd e1 (k - 1) (c * p - s * z))) else Ok e1) = Ok e2).
    { unfold e2. destruct (Nat.ltb_spec start k) as [H|H]; [|reflexivity]. rewrite aget_arr by lia. cbn [obind]. unfold e1 at 2. rewrite arr_upd by lia.
      destruct (Nat.eqb_spec (k - 1) k); [lia|]. reflexivity. }
    rewrite E2. cbn [obind].
    assert (Le2 : length e2 = n) by (unfold e2; destruct (start <? k)%nat; rewrite ?upd_length; exact Le1).
    assert (A2 : forall i, i <> (k + 1)%nat -> arr e2 i = turn_e (arr d) (arr e) c s zb k i).
    { intros i Hi. unfold turn_e. fold lft. unfold e2. destruct (Nat.ltb_spec start k) as [H|H].
      - rewrite arr_upd by lia. unfold e1. rewrite arr_upd by lia. destruct (Nat.eqb_spec i (k - 1)) as [->|N].
        + destruct (Nat.eqb_spec (k - 1) k); [lia|]. destruct (Nat.eqb_spec (k - 1 + 1) k); [|lia]. unfold lft, zb.
          destruct (Nat.eqb_spec k 0); [lia|]. destruct (Nat.eqb_spec k start); [lia|]. reflexivity.
        + destruct (Nat.eqb_spec i k); [reflexivity|]. destruct (Nat.eqb_spec (i + 1) k); [lia|]. destruct (Nat.eqb_spec i (k + 1)); [lia|reflexivity].
      - assert (k = start) by lia. unfold e1. rewrite arr_upd by lia. destruct (Nat.eqb_spec i k); [reflexivity|].
        destruct (Nat.eqb_spec (i + 1) k) as [E|E].
        + rewrite (HL H0). unfold zb. destruct (Nat.eqb_spec k start); [|lia]. destruct Z1 as [Z1|Z1]; [lia|]. replace i with (start - 1)%nat by lia. rewrite Z1. ring.
        + destruct (Nat.eqb_spec i (k + 1)); [lia|reflexivity]. }
    assert (A2k : arr e2 (k + 1) = arr e (k + 1)).
    { unfold e2. destruct (start <? k)%nat; [rewrite arr_upd by lia; destruct (Nat.eqb_spec (k + 1) (k - 1)); [lia|]|]; unfold e1; rewrite arr_upd by lia; destruct (Nat.eqb_spec (k + 1) k); try lia; reflexivity. }
    assert (AD : forall i, arr d' i = turn_d (arr d) (arr e) c s k i).
    { intros i. unfold d', turn_d. rewrite arr_upd by (rewrite upd_length; lia). rewrite arr_upd by lia.
      destruct (Nat.eqb_spec i (k + 1)) as [->|]; [destruct (Nat.eqb_spec (k + 1) k); [lia|reflexivity]|]. destruct (i =? k)%nat; reflexivity. }
    assert (Ld' : length d' = n) by (unfold d'; rewrite !upd_length; exact Ld).
    pose proof (turn_form n (arr d) (arr e) c s zb k ltac:(lia) HZ HZ0) as TF.
    assert (OLD : forall y, qf n (arr d) (arr e) y + 2 * zb * y (k - 1)%nat * y (k + 1)%nat = qf n d0 e0 (G y)).
    { intros y. rewrite <- Q. unfold zb. destruct (Nat.eqb_spec k start); [ring|]. destruct (Nat.eqb_spec k stop); [lia|]. ring. }
    assert (ISO : isometry n (fun y => G (rot c s k y)) (fun y => rot c (- s) k (Gi y))) by (apply iso_comp; [exact Iso|apply iso_rot; [exact U|lia]]).
    assert (NEW : forall y, qf n (turn_d (arr d) (arr e) c s k) (turn_e (arr d) (arr e) c s zb k) y
        + 2 * (- s * (if (k + 2 <? n)%nat then arr e (k + 1) else 0)) * y k * y (k + 2)%nat = qf n d0 e0 (G (rot c s k y))).
    { intros y. rewrite TF, <- OLD. f_equal. destruct (Nat.eq_dec k 0) as [K0|K0]; [rewrite (HZ0 K0); ring|].
      rewrite (rot_o c s k y (k - 1)) by lia. reflexivity. }
    assert (ST : (start = O \/ arr e2 (start - 1) = 0)).
    { destruct Z1 as [Z1|Z1]; [auto|]. destruct (Nat.eq_dec start 0); [auto|]. right. unfold e2. destruct (Nat.ltb_spec start k).
      - rewrite arr_upd by lia. destruct (Nat.eqb_spec (start - 1) (k - 1)); [lia|]. unfold e1. rewrite arr_upd by lia.
        destruct (Nat.eqb_spec (start - 1) k); [lia|exact Z1].
      - unfold e1. rewrite arr_upd by lia. destruct (Nat.eqb_spec (start - 1) k); [lia|exact Z1]. }
    assert (O2 : forall i, ((i < start)%nat \/ (stop <= i)%nat) -> arr e2 i = e0 i).
    { intros i Hi. rewrite <- (Out i Hi). unfold e2. destruct (Nat.ltb_spec start k).
      - rewrite arr_upd by lia. destruct (Nat.eqb_spec i (k - 1)); [lia|]. unfold e1. rewrite arr_upd by lia. destruct (Nat.eqb_spec i k); [lia|reflexivity].
      - unfold e1. rewrite arr_upd by lia. destruct (Nat.eqb_spec i k); [lia|reflexivity]. }
    assert (QX : forall f f' g g' y, (forall i, (i < n)%nat -> f i = f' i) -> (forall i, (i < n - 1)%nat -> g i = g' i) -> qf n f g y = qf n f' g' y).
    { intros f f' g g' y H1 H2. unfold qf. f_equal; [|f_equal]; apply rsum_ext; intros i Hi; [rewrite H1 by exact Hi|rewrite H2 by exact Hi]; reflexivity. }
    destruct (Nat.ltb_spec k (stop - 1)) as [Hl|Hl].
    - rewrite aget_arr by lia. cbn [obind]. rewrite A2k. eexists. split; [reflexivity|].
      cbv beta iota delta [head]. split; [exact Ld'|]. split; [rewrite upd_length; exact Le2|]. split.
      { destruct ST as [ST|ST]; [auto|]. right. rewrite arr_upd by lia. destruct (Nat.eqb_spec (start - 1) (k + 1)); [lia|exact ST]. }
      split. { intros H. rewrite arr_upd by lia. destruct (Nat.eqb_spec stop (k + 1)); [lia|]. rewrite O2 by lia. rewrite <- (Out stop) by lia. auto. }
      split. { intros i Hi. rewrite arr_upd by lia. destruct (Nat.eqb_spec i (k + 1)); [lia|]. apply O2, Hi. }
      split. { intros _ _. rewrite arr_upd by lia. destruct (Nat.eqb_spec (k + 1 - 1) (k + 1)); [lia|]. rewrite A2 by lia. unfold turn_e. replace (k + 1 - 1)%nat with k by lia. rewrite Nat.eqb_refl. reflexivity. }
      exists (fun y => G (rot c s k y)), (fun y => rot c (- s) k (Gi y)). split; [exact ISO|]. intros y. rewrite <- NEW.
      destruct (Nat.eqb_spec (k + 1) start); [lia|]. destruct (Nat.eqb_spec (k + 1) stop); [lia|].
      destruct (Nat.ltb_spec (k + 2) n); [|lia]. replace (k + 1 - 1)%nat with k by lia. replace (k + 1 + 1)%nat with (k + 2)%nat by lia. f_equal.
      apply QX; [intros; apply AD|]. intros i _. rewrite arr_upd by lia. destruct (Nat.eqb_spec i (k + 1)) as [->|N]; [|apply A2, N].
      unfold turn_e. destruct (Nat.eqb_spec (k + 1) k); [lia|]. destruct (Nat.eqb_spec (k + 1 + 1) k); [lia|]. rewrite Nat.eqb_refl. reflexivity.
    - eexists. split; [reflexivity|]. assert (Ek : (k + 1)%nat = stop) by lia.
      cbv beta iota delta [head]. split; [exact Ld'|]. split; [exact Le2|]. split; [exact ST|]. split.
      { intros H. rewrite O2 by lia. rewrite <- (Out stop) by lia. auto. }
      split; [exact O2|]. split; [intros; lia|].
      exists (fun y => G (rot c s k y)), (fun y => rot c (- s) k (Gi y)). split; [exact ISO|]. intros y. rewrite <- NEW.
      destruct (Nat.eqb_spec (k + 1) start); [lia|]. destruct (Nat.eqb_spec (k + 1) stop); [|lia].
      assert (R0 : (if (k + 2 <? n)%nat then arr e (k + 1) else 0) = 0).
      { destruct (Nat.ltb_spec (k + 2) n); [|reflexivity]. rewrite Ek. apply Z2. lia. }
      rewrite R0. rewrite (QX _ (turn_d (arr d) (arr e) c s k) _ (turn_e (arr d) (arr e) c s zb k)); [ring|intros; apply AD|].
      intros i Hi. destruct (Nat.eq_dec i (k + 1)) as [->|N]; [|apply A2, N]. rewrite A2k. unfold turn_e.
      destruct (Nat.eqb_spec (k + 1) k); [lia|]. destruct (Nat.eqb_spec (k + 1 + 1) k); [lia|]. rewrite Nat.eqb_refl. rewrite Ek. rewrite Z2 by lia. ring.
  Qed.

  Lemma turns_ok : forall d0 e0 m k st, (start <= k)%nat -> (k + m <= stop)%nat -> head d0 e0 k st ->
    exists st', ofold (qr_turn start stop) (seq k m) st = Ok st' /\ head d0 e0 (k + m) st'.
  Proof.
    intros d0 e0 m. induction m as [|m IH]; intros k st H1 H2 H; [exists st; rewrite Nat.add_0_r; auto|].
    cbn [seq ofold]. destruct (turn_ok d0 e0 k st) as (st1 & E & H'); [lia|exact H|]. rewrite E. cbn [obind].
    replace (k + S m)%nat with (S k + m)%nat by lia. replace (k + 1)%nat with (S k) in H' by lia. apply IH; auto; lia.
  Qed.

  Lemma qr_step_ok : forall d e, length d = n -> length e = n -> (start = O \/ arr e (start - 1) = 0) -> ((stop + 1 < n)%nat -> arr e stop = 0) ->
    exists d' e', tridiagonal_qr_step d e start stop = Ok (d', e') /\ length d' = n /\ length e' = n /\
      (forall i, ((i < start)%nat \/ (stop <= i)%nat) -> arr e' i = arr e i) /\
      near_form n (qf n (arr d) (arr e)) (qf n (arr d') (arr e')) 0.
  Proof.
    intros d e Ld Le Z1 Z2. unfold tridiagonal_qr_step. rewrite !aget_arr by lia. cbn [obind].
    destruct (turns_ok (arr d) (arr e) (stop - start) start (d, e, arr d start - qr_shift (arr d (stop - 1)) (arr d stop) (arr e (stop - 1)), arr e start)) as (st' & E & H).
    - lia.
    - lia.
    - unfold head. split; [exact Ld|]. split; [exact Le|]. split; [exact Z1|]. split; [exact Z2|]. split; [auto|]. split; [intros; congruence|].
      exists (fun y => y), (fun y => y). split; [apply iso_id|]. intros y. rewrite Nat.eqb_refl. ring.
    - rewrite E. destruct st' as [[[d' e'] x'] z']. cbn [omap obind fst snd]. exists d', e'. split; [reflexivity|].
      destruct H as (A & B & _ & _ & O & _ & G & Gi & Iso & Q). repeat (split; [assumption|]).
      exists G, Gi. split; [exact Iso|]. intros y. specialize (Q y). replace (start + (stop - start))%nat with stop in Q by lia.
      destruct (Nat.eqb_spec stop start); [lia|]. rewrite Nat.eqb_refl, Rplus_0_r in Q. rewrite Q, Rminus_diag_eq, Rabs_R0 by reflexivity. lra.
  Qed.
End Step.

(** ** Bounds of forms *)
Definition bounded (n : nat) (q : (nat -> R) -> R) (M : R) : Prop := forall x, Rabs (q x) <= M * nrm n x.
Lemma near_bounded : forall n q q' M delta, bounded n q M -> near_form n q q' delta -> bounded n q' (M + delta).
Proof.
  intros n q q' M delta B (G & Gi & Iso & H) x. specialize (H x). specialize (B (G x)). rewrite (iso_nrm _ _ _ Iso) in B.
  replace (q' x) with ((q' x - q (G x)) + q (G x)) by ring. eapply Rle_trans; [apply Rabs_triang|]. lra.
Qed.

Definition unit_vec (i : nat) : nat -> R := fun j => if (j =? i)%nat then 1 else 0.
Lemma unit_nrm : forall n i, (i < n)%nat -> nrm n (unit_vec i) = 1.
Proof.
  intros n i H. unfold nrm, unit_vec. rewrite (rsum_ext _ (fun j => if (j =? i)%nat then 1 else 0)) by (intros j _; destruct (j =? i)%nat; ring).
  rewrite rsum_change by exact H. rewrite rsum_const. ring.
Qed.
Lemma unit_qf : forall n d e i, (i < n)%nat -> qf n d e (unit_vec i) = d i.
Proof.
  intros n d e i H. unfold qf, unit_vec.
  rewrite (rsum_ext _ (fun j => if (j =? i)%nat then d i else 0)) by (intros j _; destruct (Nat.eqb_spec j i); [subst|]; ring).
  rewrite rsum_change by exact H. rewrite rsum_const, rsum_0; [ring|]. intros j _. destruct (Nat.eqb_spec j i), (Nat.eqb_spec (j + 1) i); try ring. lia.
Qed.

Lemma nrm_ge : forall n x i, (i < n)%nat -> x i ^ 2 <= nrm n x.
Proof.
  intros n x i. unfold nrm. induction n as [|n IH]; intros H; [lia|]. cbn [rsum]. destruct (Nat.eq_dec i n) as [->|N].
  - assert (0 <= rsum (fun i => x i ^ 2) n) by (apply rsum_nonneg; intros; apply pow2_ge_0). lra.
  - specialize (IH ltac:(lia)). assert (0 <= x n ^ 2) by apply pow2_ge_0. lra.
Qed.
Lemma nrm_ge2 : forall n x i, (i + 1 < n)%nat -> x i ^ 2 + x (i + 1)%nat ^ 2 <= nrm n x.
Proof.
  intros n x i. unfold nrm. induction n as [|n IH]; intros H; [lia|]. cbn [rsum]. destruct (Nat.eq_dec (i + 1) n) as [<-|N].
  - pose proof (nrm_ge (i + 1) x i ltac:(lia)). unfold nrm in *. lra.
  - specialize (IH ltac:(lia)). assert (0 <= x n ^ 2) by apply pow2_ge_0. lra.
Qed.

Lemma drop_one : forall n d e i, length e = n -> (i + 1 < n)%nat -> forall x,
  Rabs (qf n d (arr (upd e i 0)) x - qf n d (arr e) x) <= Rabs (arr e i) * nrm n x.
Proof.
  intros n d e i Le Hi x. unfold qf. rewrite (rsum_diff [i] (n - 1) _ (fun j => arr e j * x j * x (j + 1)%nat)).
  - cbn [map fold_right]. rewrite arr_upd by lia. rewrite Nat.eqb_refl. pose proof (nrm_ge2 n x i Hi) as B.
    match goal with |- Rabs ?a <= _ => replace a with (arr e i * (- 2 * x i * x (i + 1)%nat)) by ring end. rewrite Rabs_mult.
    apply Rmult_le_compat_l; [apply Rabs_pos|]. eapply Rle_trans; [|exact B]. pose proof (pow2_ge_0 (x i + x (i + 1)%nat)) as P1. pose proof (pow2_ge_0 (x i - x (i + 1)%nat)) as P2.
    clear -P1 P2. set (a := x i) in *. set (b := x (i + 1)%nat) in *. apply Rabs_le. split; nra.
  - repeat constructor; cbn; lia.
  - intros j [<-|[]]; lia.
  - intros j _ Hj. rewrite arr_upd by lia. destruct (Nat.eqb_spec j i); [exfalso; apply Hj; left; auto|reflexivity].
Qed.

(** ** Counting *)
Fixpoint nz (m : nat) (e : nat -> R) : nat := match m with O => O | S k => (nz k e + if is0 (e k) then 0 else 1)%nat end.
Lemma nz_le : forall m e, (nz m e <= m)%nat.
Proof. induction m as [|m IH]; intros e; cbn; [lia|]. specialize (IH e). destruct (is0 (e m)); lia. Qed.
Lemma nz_mono : forall m e e', (forall i, (i < m)%nat -> e i = 0 -> e' i = 0) -> (nz m e' <= nz m e)%nat.
Proof.
  induction m as [|m IH]; intros e e' H; cbn; [lia|]. specialize (IH e e' ltac:(intros; apply H; auto; lia)).
  destruct (is0 (e m)) eqn:E; [|destruct (is0 (e' m)); lia]. apply is0_spec in E. apply (H m) in E; [|lia]. apply is0_spec in E. rewrite E. lia.
Qed.
Lemma nz_drop : forall m e e' i, (i < m)%nat -> e i <> 0 -> e' i = 0 -> (forall j, (j < m)%nat -> j <> i -> e' j = e j) -> (nz m e' + 1 = nz m e)%nat.
Proof.
  induction m as [|m IH]; intros e e' i Hi H1 H2 H3; [lia|]. cbn. destruct (Nat.eq_dec i m) as [->|N].
  - assert (E : nz m e' = nz m e).
    { clear -H3. assert (G : forall k, (k <= m)%nat -> nz k e' = nz k e); [|apply G; lia]. induction k as [|k IHk]; intros Hk; [reflexivity|]. cbn. rewrite IHk by lia. rewrite H3 by lia. reflexivity. }
    rewrite E, (proj2 (is0_spec _) H2). destruct (is0 (e m)) eqn:E'; [apply is0_spec in E'; contradiction|]. lia.
  - specialize (IH e e' i ltac:(lia) H1 H2 ltac:(intros; apply H3; auto; lia)). rewrite (H3 m) by lia. lia.
Qed.

Section Loop.
  Variable eps : R.
  Hypothesis Heps : 0 <= eps.
  Variable n : nat.
  Variable q0 : (nat -> R) -> R.
  Variable M : R.
  Hypothesis HM : bounded n q0 M.
  Hypothesis HM0 : 0 <= M.

  Definition dev (j : nat) : R := M * ((1 + 2 * eps) ^ j - 1).
  Lemma dev_S : forall j, dev (S j) = dev j + 2 * eps * (M + dev j).
  Proof. intros j. unfold dev. cbn [pow]. ring. Qed.
  Lemma dev_nonneg : forall j, 0 <= dev j.
  Proof. intros j. unfold dev. apply Rmult_le_pos; [exact HM0|]. assert (1 <= (1 + 2 * eps) ^ j) by (apply pow_R1_Rle; lra). lra. Qed.
  Lemma dev_mono : forall j k, (j <= k)%nat -> dev j <= dev k.
  Proof. intros j k H. unfold dev. apply Rmult_le_compat_l; [exact HM0|]. assert ((1 + 2 * eps) ^ j <= (1 + 2 * eps) ^ k) by (apply Rle_pow; [lra|exact H]). lra. Qed.
  Lemma near_mono : forall q q' a b, a <= b -> near_form n q q' a -> near_form n q q' b.
  Proof.
    intros q q' a b H (G & Gi & Iso & K). exists G, Gi. split; [exact Iso|]. intros x. eapply Rle_trans; [apply K|].
    apply Rmult_le_compat_r; [apply nrm_nonneg|exact H].
  Qed.

  Definition good (d e : list R) : Prop := length d = n /\ length e = n /\ near_form n q0 (qf n (arr d) (arr e)) (dev (n - 1 - nz (n - 1) (arr e))).

  Lemma deflate_one : forall d e i, good d e -> (i + 1 < n)%nat -> Rabs (arr e i) < (Rabs (arr d i) + Rabs (arr d (i + 1))) * eps -> good d (upd e i 0).
  Proof.
    intros d e i (Ld & Le & H) Hi Hs. split; [exact Ld|]. split; [rewrite upd_length; exact Le|].
    assert (Step : near_form n (qf n (arr d) (arr e)) (qf n (arr d) (arr (upd e i 0))) (Rabs (arr e i))).
    { exists (fun x => x), (fun x => x). split; [apply iso_id|]. apply drop_one; auto. }
    destruct (Req_dec (arr e i) 0) as [Z|NZ].
    { assert (A : forall j, arr (upd e i 0) j = arr e j) by (intros j; rewrite arr_upd by lia; destruct (Nat.eqb_spec j i); [subst; auto|reflexivity]).
      assert (N : nz (n - 1) (arr (upd e i 0)) = nz (n - 1) (arr e)).
      { apply Nat.le_antisymm; apply nz_mono; intros j _; rewrite A; auto. }
      rewrite N. replace (dev (n - 1 - nz (n - 1) (arr e))) with (dev (n - 1 - nz (n - 1) (arr e)) + Rabs (arr e i)) by (rewrite Z, Rabs_R0; ring).
      eapply near_trans; eauto. }
    assert (N : (nz (n - 1) (arr (upd e i 0%R)) + 1 = nz (n - 1) (arr e))%nat).
    { apply (nz_drop _ _ _ i); [lia|exact NZ| |]; [rewrite arr_upd by lia; rewrite Nat.eqb_refl; reflexivity|].
      intros j _ Hj. rewrite arr_upd by lia. destruct (Nat.eqb_spec j i); [lia|reflexivity]. }
    pose proof (nz_le (n - 1) (arr e)). set (j := (n - 1 - nz (n - 1) (arr e))%nat) in *.
    replace (n - 1 - nz (n - 1) (arr (upd e i 0%R)))%nat with (S j) by lia. rewrite dev_S.
    pose proof (near_bounded n _ _ _ _ HM H) as B.
    assert (D : forall k, (k < n)%nat -> Rabs (arr d k) <= M + dev j).
    { intros k Hk. specialize (B (unit_vec k)). rewrite unit_qf, unit_nrm in B by exact Hk. lra. }
    pose proof (D i ltac:(lia)). pose proof (D (i + 1)%nat Hi).
    eapply near_trans; [exact H|]. eapply near_mono; [|exact Step].
    apply Rlt_le. eapply Rlt_le_trans; [exact Hs|]. rewrite (Rmult_comm 2 eps), Rmult_assoc, Rmult_comm. apply Rmult_le_compat_l; [exact Heps|]. lra.
  Qed.

  Lemma deflate_gen : forall d m s e, good d e -> (s + m <= n - 1)%nat ->
    exists e1, ofold (fun e i => obind (aget e i) (fun a => obind (aget d i) (fun d0 => obind (aget d (i + 1)) (fun d1 =>
             Ok (if ltb (Rabs a) ((Rabs d0 + Rabs d1) * eps) then upd e i 0 else e))))) (seq s m) e = Ok e1 /\ good d e1 /\
      forall i, arr e i = 0 -> arr e1 i = 0.
  Proof.
    intros d m. induction m as [|m IH]; intros s e Hg Hb; [exists e; auto|]. cbn [seq ofold]. destruct Hg as (Ld & Le & Hn).
    rewrite (aget_arr e s), (aget_arr d s), (aget_arr d (s + 1)) by lia. cbn [obind].
    destruct (ltb (Rabs (arr e s)) ((Rabs (arr d s) + Rabs (arr d (s + 1))) * eps)) eqn:LT.
    1: assert (L : Rabs (arr e s) < (Rabs (arr d s) + Rabs (arr d (s + 1))) * eps) by (unfold ltb in LT; destruct (Rlt_dec _ _); [assumption|discriminate]).
    - destruct (IH (S s) (upd e s 0)) as (e1 & E & G & Z); [apply deflate_one; [repeat split; auto|lia|exact L]|lia|]. exists e1. split; [exact E|]. split; [exact G|].
      intros i Hi. apply Z. rewrite arr_upd by lia. destruct (i =? s)%nat; auto.
    - destruct (IH (S s) e) as (e1 & E & G & Z); [repeat split; auto|lia|]. eauto.
  Qed.
  Lemma deflate_ok : forall d e start stop, good d e -> (start <= stop)%nat -> (stop <= n - 1)%nat ->
    exists e1, deflate eps d start stop e = Ok e1 /\ good d e1 /\ forall i, arr e i = 0 -> arr e1 i = 0.
  Proof. intros. apply deflate_gen; auto. lia. Qed.

  Lemma shrink_ok : forall e stop, (stop <= length e)%nat ->
    exists stop', shrink e stop = Ok stop' /\ (stop' <= stop)%nat /\ (forall i, (stop' <= i < stop)%nat -> arr e i = 0) /\ (stop' <> O -> arr e (stop' - 1) <> 0).
  Proof.
    intros e. induction stop as [|k IH]; intros H; [exists O; cbn; repeat split; auto; intros; lia|]. cbn [shrink]. rewrite aget_arr by lia. cbn [obind].
    destruct (is0 (arr e k)) eqn:Z.
    - destruct IH as (s' & E & A & B & C); [lia|]. exists s'. split; [exact E|]. split; [lia|]. split; [|exact C].
      intros i Hi. destruct (Nat.eq_dec i k) as [->|]; [apply is0_spec, Z|apply B; lia].
    - exists (S k). split; [reflexivity|]. split; [lia|]. split; [intros; lia|]. intros _ Q. cbn in Q. rewrite Nat.sub_0_r in Q. apply is0_spec in Q. congruence.
  Qed.
  Lemma block_start_ok : forall e s, (s <= length e)%nat ->
    exists s', block_start e s = Ok s' /\ (s' <= s)%nat /\ (s' = O \/ arr e (s' - 1) = 0) /\ forall i, (s' <= i < s)%nat -> arr e i <> 0.
  Proof.
    intros e. induction s as [|k IH]; intros H; [exists O; cbn; repeat split; auto; intros; lia|]. cbn [block_start]. rewrite aget_arr by lia. cbn [obind].
    destruct (is0 (arr e k)) eqn:Z.
    - exists (S k). split; [reflexivity|]. split; [lia|]. split; [right; cbn; rewrite Nat.sub_0_r; apply is0_spec, Z|intros; lia].
    - destruct IH as (s' & E & A & B & C); [lia|]. exists s'. split; [exact E|]. split; [lia|]. split; [exact B|].
      intros i Hi. destruct (Nat.eq_dec i k) as [->|]; [intros Q; apply is0_spec in Q; congruence|apply C; lia].
  Qed.

  Definition diag_form (l : list R) (x : nat -> R) : R := rsum (fun i => arr l i * x i ^ 2) n.
  Lemma diag_zero : forall d e x, (forall i, (i < n - 1)%nat -> e i = 0) -> qf n (arr d) e x = diag_form d x.
  Proof. intros d e x H. unfold qf, diag_form. rewrite (rsum_0 (fun i => e i * x i * x (i + 1)%nat)); [ring|]. intros i Hi. rewrite H by exact Hi. ring. Qed.

  Lemma good_done : forall d e, good d e -> (forall i, (i < n - 1)%nat -> arr e i = 0) -> length d = n /\ near_form n q0 (diag_form d) (dev (n - 1)).
  Proof.
    intros d e (Ld & Le & H) Z. split; [exact Ld|]. apply near_mono with (dev (n - 1 - nz (n - 1) (arr e))); [apply dev_mono; lia|].
    destruct H as (G & Gi & Iso & K). exists G, Gi. split; [exact Iso|]. intros x. rewrite <- (diag_zero d (arr e)) by exact Z. apply K.
  Qed.

  Lemma qr_loop_ok : forall fuel d e start stop iter, good d e -> (start <= stop)%nat -> (stop = O \/ stop <= n - 1)%nat ->
    (forall i, (stop <= i < n - 1)%nat -> arr e i = 0) -> (iter <= max_iterations * n)%nat -> (max_iterations * n + 1 - iter < fuel)%nat ->
    qr_loop eps fuel d e start stop iter = Some Throw \/
    exists ev, qr_loop eps fuel d e start stop iter = Some (Ok ev) /\ length ev = n /\ near_form n q0 (diag_form ev) (dev (n - 1)).
  Proof.
    induction fuel as [|f IH]; intros d e start stop iter Hg Hs Hb Hz Hi Hf; [lia|]. cbn [qr_loop].
    destruct (Nat.eqb_spec stop 0) as [->|N0].
    { right. exists d. split; [reflexivity|]. apply (good_done d e Hg). intros i Hi'. apply Hz. lia. }
    assert (Hb' : (stop <= n - 1)%nat) by lia.
    destruct (deflate_ok d e start stop Hg Hs Hb') as (e1 & E1 & G1 & Z1). rewrite E1.
    pose proof G1 as (Ld & Le1 & NF1).
    destruct (shrink_ok e1 stop ltac:(lia)) as (stop' & E2 & A2 & B2 & C2). rewrite E2.
    assert (Z' : forall i, (stop' <= i < n - 1)%nat -> arr e1 i = 0).
    { intros i Hi'. destruct (Nat.lt_ge_cases i stop); [apply B2; lia|]. apply Z1, Hz. lia. }
    destruct (Nat.eqb_spec stop' 0) as [->|N1].
    { right. exists d. split; [reflexivity|]. apply (good_done d e1 G1). intros i Hi'. apply Z'. lia. }
    rewrite Ld. destruct (Nat.ltb_spec (max_iterations * n) (iter + 1)) as [L|L]; [left; reflexivity|].
    destruct (block_start_ok e1 (stop' - 1) ltac:(lia)) as (start' & E3 & A3 & B3 & C3). rewrite E3.
    destruct (qr_step_ok n start' stop' ltac:(lia) ltac:(lia) d e1 Ld Le1 B3) as (d' & e' & E4 & Ld' & Le' & O4 & NF4).
    { intros H. apply Z'. lia. }
    rewrite E4. apply IH.
    - split; [exact Ld'|]. split; [exact Le'|]. apply near_mono with (dev (n - 1 - nz (n - 1) (arr e1)) + 0).
      + rewrite Rplus_0_r. apply dev_mono. assert (nz (n - 1) (arr e') <= nz (n - 1) (arr e1))%nat; [|lia].
        apply nz_mono. intros i Hi' Zi. destruct (Nat.lt_ge_cases i start') as [H|H]; [rewrite O4 by lia; exact Zi|].
        destruct (Nat.lt_ge_cases i stop') as [H'|H']; [|rewrite O4 by lia; exact Zi]. exfalso.
        destruct (Nat.eq_dec i (stop' - 1)) as [->|]; [apply (C2 N1), Zi|apply (C3 i); [lia|exact Zi]].
      + eapply near_trans; [exact NF1|exact NF4].
    - lia.
    - right. lia.
    - intros i Hi'. rewrite O4 by lia. apply Z'. lia.
    - lia.
    - lia.
  Qed.
End Loop.

(** The eigenvalues of the tridiagonal matrix: either the iteration limit is reached, or a diagonal
    form comes out that is the given one in other (orthonormal) coordinates up to a small error. *)
Lemma tridiagonal_ok : forall eps alpha beta M, 0 <= eps -> length beta = length alpha -> 0 <= M ->
  bounded (length alpha) (qf (length alpha) (arr alpha) (arr beta)) M ->
  tridiagonal_eigenvalues eps alpha beta = Throw \/
  exists ev, tridiagonal_eigenvalues eps alpha beta = Ok ev /\ length ev = length alpha /\
    near_form (length alpha) (qf (length alpha) (arr alpha) (arr beta)) (diag_form (length alpha) ev) (M * ((1 + 2 * eps) ^ (length alpha - 1) - 1)).
Proof.
  intros eps alpha beta M He Lb HM B. set (n := length alpha) in *. unfold tridiagonal_eigenvalues. fold n.
  destruct (qr_loop_ok eps He n (qf n (arr alpha) (arr beta)) M B HM (fuel_for n) alpha beta 0 (n - 1) 0) as [E|(ev & E & L & NF)].
  - split; [reflexivity|]. split; [exact Lb|]. apply near_mono with 0; [apply dev_nonneg; assumption|apply near_refl].
  - lia.
  - lia.
  - intros; lia.
  - lia.
  - unfold fuel_for. lia.
  - left. rewrite E. reflexivity.
  - right. exists ev. rewrite E. auto.
Qed.
