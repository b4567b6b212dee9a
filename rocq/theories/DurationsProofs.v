(* Rounding and piecewise monotone functions (C108). *)
From Verif Require Import Base Durations.
From Coq Require Import QArith Qround Qabs Lqa Lia.
Local Open Scope Q_scope.

Lemma floor_le : forall q, inject_Z (Qfloor q) <= q. Proof. exact Qfloor_le. Qed.
Lemma floor_lt : forall q, q < inject_Z (Qfloor q) + 1.
Proof. intros q. pose proof (Qlt_floor q) as H. rewrite inject_Z_plus in H. exact H. Qed.
Lemma floor_unique : forall q z, inject_Z z <= q -> q < inject_Z z + 1 -> Qfloor q = z.
Proof.
  intros q z H1 H2. pose proof (floor_le q) as A. pose proof (floor_lt q) as B.
  assert (X : inject_Z z < inject_Z (Qfloor q) + 1) by lra. assert (Y : inject_Z (Qfloor q) < inject_Z z + 1) by lra.
  change 1 with (inject_Z 1) in X, Y. rewrite <- inject_Z_plus, <- Zlt_Qlt in X, Y. lia.
Qed.
Lemma nearest_bound : forall q, Qabs (inject_Z (nearest q) - q) <= 1 # 2.
Proof.
  intros q. unfold nearest. pose proof (floor_le q). pose proof (floor_lt q). set (f := Qfloor q) in *. apply Qabs_Qle_condition.
  destruct (Qcompare_spec (q - inject_Z f) (1 # 2)) as [E|E|E].
  - destruct (Z.even f); [lra|]. rewrite inject_Z_plus. change (inject_Z 1) with 1. lra.
  - lra.
  - rewrite inject_Z_plus. change (inject_Z 1) with 1. lra.
Qed.
Lemma nearest_mono : forall p q, p <= q -> (nearest p <= nearest q)%Z.
Proof.
  intros p q H. unfold nearest. pose proof (floor_le p). pose proof (floor_lt p). pose proof (floor_le q). pose proof (floor_lt q).
  pose proof (Qfloor_resp_le p q H) as F. set (a := Qfloor p) in *. set (b := Qfloor q) in *.
  destruct (Z.eq_dec a b) as [E|E].
  - rewrite <- E in *. destruct (Qcompare_spec (p - inject_Z a) (1 # 2)), (Qcompare_spec (q - inject_Z a) (1 # 2)); try lia; try (destruct (Z.even a); lia); exfalso; lra.
  - assert (a + 1 <= b)%Z by lia.
    destruct (Qcompare (p - inject_Z a) (1 # 2)), (Qcompare (q - inject_Z b) (1 # 2)); try destruct (Z.even a); try destruct (Z.even b); lia.
Qed.
Lemma nearest_eq : forall p q, p == q -> nearest p = nearest q.
Proof. intros p q H. apply Z.le_antisymm; apply nearest_mono; rewrite H; apply Qle_refl. Qed.
Lemma nearest_Z : forall z, nearest (inject_Z z) = z.
Proof.
  intros z. pose proof (nearest_bound (inject_Z z)) as H. apply Qabs_Qle_condition in H.
  assert (X : inject_Z (nearest (inject_Z z)) < inject_Z z + 1) by lra. assert (Y : inject_Z z < inject_Z (nearest (inject_Z z)) + 1) by lra.
  change 1 with (inject_Z 1) in X, Y. rewrite <- inject_Z_plus, <- Zlt_Qlt in X, Y. lia.
Qed.

(** ** The printed values *)
Definition rounded (k : nat) (unit x : Q) : Q := inject_Z (nearest (x / unit * inject_Z (10 ^ Z.of_nat k))) * unit / inject_Z (10 ^ Z.of_nat k).
Definition cut (unit x : Q) : Q := inject_Z (Qfloor (x / unit)) * unit.

Lemma power_pos : forall k, 0 < inject_Z (10 ^ Z.of_nat k).
Proof. intros k. change 0 with (inject_Z 0). rewrite <- Zlt_Qlt. apply Z.pow_pos_nonneg; lia. Qed.
Lemma rounded_mono : forall k unit x y, 0 < unit -> x <= y -> rounded k unit x <= rounded k unit y.
Proof.
  intros k unit x y Hu H. pose proof (power_pos k) as Hp. unfold rounded, Qdiv. set (w := inject_Z (10 ^ Z.of_nat k)) in *.
  assert (0 < / unit) by (apply Qinv_lt_0_compat; exact Hu). assert (0 < / w) by (apply Qinv_lt_0_compat; exact Hp).
  apply Qmult_le_compat_r; [|apply Qlt_le_weak; assumption]. apply Qmult_le_compat_r; [|apply Qlt_le_weak; assumption].
  rewrite <- Zle_Qle. apply nearest_mono. apply Qmult_le_compat_r; [|apply Qlt_le_weak; assumption]. apply Qmult_le_compat_r; [|apply Qlt_le_weak; assumption]. exact H.
Qed.
Lemma cut_mono : forall unit x y, 0 < unit -> x <= y -> cut unit x <= cut unit y.
Proof.
  intros unit x y Hu H. unfold cut, Qdiv. assert (0 < / unit) by (apply Qinv_lt_0_compat; exact Hu).
  apply Qmult_le_compat_r; [|apply Qlt_le_weak; assumption]. rewrite <- Zle_Qle. apply Qfloor_resp_le. apply Qmult_le_compat_r; [|apply Qlt_le_weak; assumption]. exact H.
Qed.
Lemma rounded_close : forall k unit x, 0 < unit -> Qabs (rounded k unit x - x) <= unit / inject_Z (10 ^ Z.of_nat k) / 2.
Proof.
  intros k unit x Hu. pose proof (power_pos k) as Hp. unfold rounded. set (w := inject_Z (10 ^ Z.of_nat k)) in *.
  pose proof (nearest_bound (x / unit * w)) as B. set (n := inject_Z (nearest (x / unit * w))) in *.
  assert (E : n * unit / w - x == (n - x / unit * w) * (unit / w)) by (field; split; lra). rewrite E, Qabs_Qmult.
  assert (P : 0 < unit / w) by (unfold Qdiv; apply Qmult_lt_0_compat; [exact Hu|apply Qinv_lt_0_compat; exact Hp]).
  rewrite (Qabs_pos (unit / w)) by lra. setoid_replace (unit / w / 2) with ((1 # 2) * (unit / w)) by (field; lra). apply Qmult_le_compat_r; lra.
Qed.
Lemma cut_close : forall unit x, 0 < unit -> cut unit x <= x /\ x < cut unit x + unit.
Proof.
  intros unit x Hu. unfold cut. pose proof (floor_le (x / unit)) as A. pose proof (floor_lt (x / unit)) as B. set (f := inject_Z (Qfloor (x / unit))) in *.
  assert (E : x == x / unit * unit) by (field; lra). split.
  - apply Qle_trans with (x / unit * unit); [apply Qmult_le_compat_r; lra|lra].
  - setoid_replace (f * unit + unit) with ((f + 1) * unit) by ring. apply Qle_lt_trans with (x / unit * unit); [lra|]. apply Qmult_lt_r; lra.
Qed.

Definition mono (f : Q -> Q) : Prop := forall x y, x <= y -> f x <= f y.
Definition mono_from (a : Q) (f : Q -> Q) : Prop := forall x y, a <= x -> x <= y -> f x <= f y.
Definition glued (a : Q) (f g : Q -> Q) (x : Q) : Q := if below x a then f x else g x.
Lemma glue : forall a f g, mono f -> mono_from a g -> f a <= g a -> mono (glued a f g).
Proof.
  intros a f g Hf Hg H x y L. unfold glued, below. destruct (Qlt_le_dec x a), (Qlt_le_dec y a).
  - apply Hf; exact L.
  - apply Qle_trans with (f a); [apply Hf; lra|]. apply Qle_trans with (g a); [exact H|]. apply Hg; lra.
  - exfalso. lra.
  - apply Hg; lra.
Qed.
Lemma mono_weak : forall a f, mono f -> mono_from a f.
Proof. intros a f H x y _ L. apply H; exact L. Qed.
Lemma rounded_mono' : forall k unit, 0 < unit -> mono (rounded k unit). Proof. intros k unit H x y L. apply rounded_mono; assumption. Qed.
Lemma cut_mono' : forall unit, 0 < unit -> mono (cut unit). Proof. intros unit H x y L. apply cut_mono; assumption. Qed.

Definition ms : Q := inject_Z millisecond.
Definition sec : Q := inject_Z second.
Definition shown_cpp : Q -> Q :=
  glued ms (rounded 2 ms) (glued (inject_Z (10 * millisecond)) (rounded 1 ms) (glued (inject_Z (100 * millisecond)) (cut ms) (glued (inject_Z (10 * second)) (rounded 2 sec) (glued (inject_Z (20 * second)) (rounded 1 sec) (cut sec))))).
Definition shown_py : Q -> Q :=
  glued ms (rounded 2 ms) (glued (inject_Z (10 * millisecond)) (rounded 1 ms) (glued (inject_Z (100 * millisecond)) (rounded 0 ms) (glued (inject_Z (10 * second)) (rounded 2 sec) (glued (inject_Z (20 * second)) (rounded 1 sec) (glued (inject_Z (60 * second)) (rounded 0 sec) (cut sec)))))).
Lemma ms_pos : 0 < ms. Proof. reflexivity. Qed.
Lemma sec_pos : 0 < sec. Proof. reflexivity. Qed.
Ltac pieces := repeat (apply glue; [(apply rounded_mono'; reflexivity) || (apply cut_mono'; reflexivity)|apply mono_weak|vm_compute; discriminate]); apply cut_mono'; reflexivity.
Lemma cpp_mono : mono shown_cpp.
Proof. unfold shown_cpp. pieces. Qed.
Lemma py_mono : mono shown_py.
Proof. unfold shown_py. pieces. Qed.
