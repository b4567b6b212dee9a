(* C89: operations on the result of a sweep keep every value at its coordinates. *)
From Coq Require Import QArith.
From Verif Require Import Base StructureSlice SliceProofs PropsSlice SweepOps.
Local Open Scope nat_scope.

(* ------------------------------------------------------------------ *)
(* Specification *)

(** [data] has the [shape == (x.size, y.size)] of the documentation (results.py:781-782) *)
Definition fits {D} (w : sweep D) : Prop :=
  length (w_data w) = length (w_x w) /\ Forall (fun r => length r = length (w_y w)) (w_data w).

Definition elem {D} (w : sweep D) (i j : nat) : option D :=
  match nth_error (w_data w) i with Some r => nth_error r j | None => None end.

(** [w'] shows [w] at the positions [kx] and [ky] *)
Definition shows {D} (w w' : sweep D) (kx ky : list nat) : Prop :=
  fits w' /\ length (w_x w') = length kx /\ length (w_y w') = length ky /\
  (forall a k, nth_error kx a = Some k -> nth_error (w_x w') a = nth_error (w_x w) k) /\
  (forall b k, nth_error ky b = Some k -> nth_error (w_y w') b = nth_error (w_y w) k) /\
  (forall a b ka kb, nth_error kx a = Some ka -> nth_error ky b = Some kb -> elem w' a b = elem w ka kb).

Definition full_axis : axis_index := Many (Slice None None 1).

Definition C89_claim : Prop := forall (D : Type) (w w' : sweep D) ix iy,
  fits w -> sweep_get w ix iy = Ok w' ->
  exists kx ky, axis_positions (length (w_x w)) ix = Ok kx /\
    axis_positions (length (w_y w)) (match iy with Some i => i | None => full_axis end) = Ok ky /\ shows w w' kx ky.

(* ------------------------------------------------------------------ *)

Lemma axis_bound : forall n i ks, axis_positions n i = Ok ks -> Forall (fun k => k < n) ks.
Proof.
  intros n [z|i] ks H; cbn in H.
  - apply omap_ok in H. destruct H as [k [H ->]]. apply norm_int_ok in H. constructor; [apply H|constructor].
  - now apply resolve_bound in H.
Qed.

Lemma row_length : forall {D} (w : sweep D) k, fits w -> k < length (w_x w) -> length (nth k (w_data w) []) = length (w_y w).
Proof.
  intros D w k [L F] H. rewrite Forall_forall in F. apply F. apply nth_In. lia.
Qed.

Lemma elem_nth : forall {D} (w : sweep D) k j, fits w -> k < length (w_x w) -> elem w k j = nth_error (nth k (w_data w) []) j.
Proof. intros D w k j [L F] H. unfold elem. now rewrite (nth_error_nth' (w_data w) []) by lia. Qed.

Lemma outer_shows : forall {D} (w : sweep D) kx ky, fits w ->
  Forall (fun k => k < length (w_x w)) kx -> Forall (fun k => k < length (w_y w)) ky ->
  shows w (Build_sweep (pick (w_x w) kx) (pick (w_y w) ky) (outer (w_data w) kx ky)) kx ky.
Proof.
  intros D w kx ky F Bx By. unfold shows, fits. cbn [w_x w_y w_data].
  rewrite !pick_length by assumption. unfold outer at 1. rewrite map_length.
  split; [split; [reflexivity|]|].
  - apply Forall_forall. intros r Hr. apply in_map_iff in Hr. destruct Hr as [k [<- Hk]].
    rewrite Forall_forall in Bx. apply pick_length. rewrite row_length; auto.
  - split; [reflexivity|]. split; [reflexivity|]. split; [intros; now apply pick_nth|]. split; [intros; now apply pick_nth|].
    intros a b ka kb Ea Eb. assert (ka < length (w_x w)) by (rewrite Forall_forall in Bx; apply Bx; eapply nth_error_In; eauto).
    rewrite (elem_nth w ka kb F) by assumption. unfold elem. cbn [w_data]. unfold outer. rewrite nth_error_map, Ea. cbn.
    apply pick_nth; auto. now rewrite row_length.
Qed.

Lemma paired_row : forall {D} (m : list (list D)) i ky, paired m (map (fun j => (i, j)) ky) = pick (nth i m []) ky.
Proof.
  intros D m i ky. induction ky as [|j t IH]; [reflexivity|]. cbn [map paired pick].
  destruct (nth_error (nth i m []) j); now rewrite IH.
Qed.

(** The index of the second axis is harmless: it is a slice or missing, or the first index is a single
    integer, or the first is a slice and the second keeps its axis *)
Definition harmless (ix : axis_index) (iy : option axis_index) : bool :=
  match ix, iy with
  | One _, _ => true
  | Many _, None => true
  | Many _, Some (One _) => false
  | Many i, Some (Many j) => is_slice i || is_slice j
  end.

(** C89 for indexing with one integer first, or with a slice in one of the places. *)
Theorem C89_partial : forall (D : Type) (w w' : sweep D) ix iy,
  fits w -> harmless ix iy = true -> sweep_get w ix iy = Ok w' ->
  exists kx ky, axis_positions (length (w_x w)) ix = Ok kx /\
    axis_positions (length (w_y w)) (match iy with Some i => i | None => full_axis end) = Ok ky /\ shows w w' kx ky.
Proof.
  intros D w w' ix iy F H G. unfold sweep_get in G. fold full_axis in G.
  set (iy' := match iy with Some i => i | None => full_axis end) in *.
  apply obind_ok in G. destruct G as [kx [Kx G]]. apply obind_ok in G. destruct G as [ky [Ky G]].
  apply omap_ok in G. destruct G as [d [Gd ->]].
  exists kx, ky. split; [exact Kx|]. split; [exact Ky|].
  pose proof (axis_bound _ _ _ Kx) as Bx. pose proof (axis_bound _ _ _ Ky) as By.
  assert (E : d = outer (w_data w) kx ky).
  { destruct ix as [z|i].
    - cbn in Kx. apply omap_ok in Kx. destruct Kx as [k [_ ->]].
      destruct iy' as [z'|j]; cbn in Gd.
      + apply omap_ok in Ky. destruct Ky as [k' [_ ->]]. injection Gd as <-. cbn. unfold outer. cbn.
        destruct (nth_error (nth k (w_data w) []) k'); reflexivity.
      + injection Gd as <-. unfold outer. cbn. now rewrite paired_row.
    - unfold iy' in *. destruct iy as [[z'|j]|]; cbn in H, Gd; [discriminate| |].
      + rewrite H in Gd. injection Gd as <-. reflexivity.
      + rewrite orb_true_r in Gd. injection Gd as <-. reflexivity. }
  subst d. now apply outer_shows.
Qed.

(** A single column comes out as a row: its shape is wrong unless there is exactly one value of x. *)
Theorem C89_column : forall (D : Type) (w w' : sweep D) i z,
  fits w -> sweep_get w (Many i) (Some (One z)) = Ok w' ->
  length (w_data w') = 1 /\ length (nth 0 (w_data w') []) = length (w_x w') /\ length (w_y w') = 1 /\
  (fits w' <-> length (w_x w') = 1).
Proof.
  intros D w w' i z F G. unfold sweep_get in G. cbn [axis_positions] in G.
  apply obind_ok in G. destruct G as [kx [Kx G]]. apply obind_ok in G. destruct G as [ky [Ky G]].
  apply omap_ok in G. destruct G as [d [Gd ->]]. apply omap_ok in Ky. destruct Ky as [k [Nk ->]].
  cbn in Gd. injection Gd as <-. apply norm_int_ok in Nk. destruct Nk as [Lk _].
  pose proof (resolve_bound _ _ _ Kx) as Bx. cbn [w_x w_y w_data nth].
  rewrite pick_length by assumption. rewrite (pick_length (w_y w) [k]) by (constructor; [exact Lk|constructor]).
  assert (LP : length (paired (w_data w) (map (fun i => (i, k)) kx)) = length kx).
  { clear Kx. induction kx as [|a t IH]; [reflexivity|]. inversion Bx; subst. cbn [map paired].
    destruct (nth_error (nth a (w_data w) []) k) eqn:E; [cbn; now rewrite IH|].
    apply nth_error_None in E. rewrite row_length in E by assumption. lia. }
  split; [reflexivity|]. split; [exact LP|]. split; [reflexivity|].
  unfold fits. cbn [w_x w_y w_data length]. rewrite (pick_length (w_x w)) by assumption. rewrite (pick_length (w_y w) [k]) by (constructor; [exact Lk|constructor]).
  split; [intros [A _]; lia|]. intros A. split; [lia|]. constructor; [|constructor]. rewrite LP. exact A.
Qed.

Definition ex_sweep : sweep nat := Build_sweep [0; 1; 2]%Q [10; 20]%Q [[1; 2]; [3; 4]; [5; 6]].
Lemma ex_fits : fits ex_sweep.
Proof. split; [reflexivity|]. repeat constructor. Qed.
Example ex_get : sweep_get ex_sweep (Many (Ints [2; 0]%Z)) (Some (Many (Slice (Some 1%Z) None 1))) = Ok (Build_sweep [2; 0]%Q [20]%Q [[6]; [2]]).
Proof. reflexivity. Qed.
Example ex_column : sweep_get ex_sweep full_axis (Some (One 1)) = Ok (Build_sweep [0; 1; 2]%Q [20]%Q [[2; 4; 6]]).
Proof. reflexivity. Qed.
(** two lists select pairs instead of rows and columns *)
Example ex_pairs : sweep_get ex_sweep (Many (Ints [0; 2]%Z)) (Some (Many (Ints [0; 1]%Z))) = Ok (Build_sweep [0; 2]%Q [10; 20]%Q [[1; 6]]).
Proof. reflexivity. Qed.

(** Two indices without a slice: one row, whose elements are those at pairs of positions.  A single position goes with all
    of the other axis, and other lists of different lengths are refused. *)
Definition goes_with (l : list nat) (n : nat) : option nat := if Nat.eqb (length l) 1 then nth_error l 0 else nth_error l n.
Lemma paired_nth : forall {D} (w : sweep D) ps, fits w -> Forall (fun p => fst p < length (w_x w) /\ snd p < length (w_y w)) ps ->
  length (paired (w_data w) ps) = length ps /\ forall n a b, nth_error ps n = Some (a, b) -> nth_error (paired (w_data w) ps) n = elem w a b.
Proof.
  intros D w ps F. induction ps as [|[i j] t IH]; intros B; [split; [reflexivity|intros [|n] a b H; discriminate H]|].
  inversion B as [|x y [Bi Bj] Bt]; subst. cbn [fst snd] in Bi, Bj. destruct (IH Bt) as [L N]. cbn [paired].
  destruct (nth_error (nth i (w_data w) []) j) as [d|] eqn:E.
  - split; [cbn; now rewrite L|]. intros [|n] a b H; cbn in H |- *; [|now apply N]. injection H as <- <-. rewrite elem_nth by assumption. now rewrite E.
  - apply nth_error_None in E. rewrite row_length in E by assumption. lia.
Qed.
Theorem C89_pairs : forall (D : Type) (w w' : sweep D) i j kx ky, fits w -> is_slice i = false -> is_slice j = false ->
  axis_positions (length (w_x w)) (Many i) = Ok kx -> axis_positions (length (w_y w)) (Many j) = Ok ky ->
  (sweep_get w (Many i) (Some (Many j)) = Ok w' ->
   (length kx = length ky \/ length kx = 1 \/ length ky = 1) /\
   exists row, w_data w' = [row] /\ length row = (if Nat.eqb (length kx) 1 then length ky else length kx) /\
     forall n a b, n < length row -> goes_with kx n = Some a -> goes_with ky n = Some b -> nth_error row n = elem w a b) /\
  (length kx <> length ky -> length kx <> 1 -> length ky <> 1 -> sweep_get w (Many i) (Some (Many j)) = Throw).
Proof.
  intros D w w' i j kx ky F Si Sj Kx Ky. pose proof (axis_bound _ _ _ Kx) as Bx. pose proof (axis_bound _ _ _ Ky) as By.
  rewrite Forall_forall in Bx, By. unfold sweep_get. rewrite Kx, Ky. cbn [obind data_get]. rewrite Si, Sj. cbn [orb]. unfold broadcast.
  destruct (Nat.eqb_spec (length kx) (length ky)) as [E|E].
  - split; [|intros H; contradiction]. intros G. injection G as <-. split; [now left|]. cbn [w_data]. eexists. split; [reflexivity|].
    destruct (paired_nth w (combine kx ky) F) as [L N].
    { apply Forall_forall. intros [a b] H. split; [apply Bx|apply By]; [eapply in_combine_l|eapply in_combine_r]; exact H. }
    rewrite L, combine_length. split; [destruct (Nat.eqb_spec (length kx) 1); lia|]. intros n a b Ln Ga Gb. apply N.
    assert (Ga' : nth_error kx n = Some a) by (unfold goes_with in Ga; destruct (Nat.eqb_spec (length kx) 1); [replace n with 0 by lia|]; exact Ga).
    assert (Gb' : nth_error ky n = Some b) by (unfold goes_with in Gb; destruct (Nat.eqb_spec (length ky) 1); [replace n with 0 by lia|]; exact Gb).
    clear - Ga' Gb'. revert ky n Ga' Gb'. induction kx as [|x t IH]; intros [|y u] [|n] A B; try discriminate; cbn in *; [congruence|now apply IH].
  - destruct (Nat.eqb_spec (length kx) 1) as [E1|E1].
    + split; [|intros _ H; contradiction]. intros G. injection G as <-. split; [auto|]. cbn [w_data]. eexists. split; [reflexivity|].
      destruct kx as [|k [|]]; try discriminate E1. cbn [nth length] in *.
      destruct (paired_nth w (map (fun j => (k, j)) ky) F) as [L N].
      { apply Forall_forall. intros [a b] H. apply in_map_iff in H. destruct H as (b' & H & I). injection H as <- <-. split; [apply Bx; now left|now apply By]. }
      rewrite L, map_length. split; [reflexivity|]. intros n a b Ln Ga Gb. apply N. unfold goes_with in Ga, Gb. cbn in Ga. injection Ga as <-.
      destruct (Nat.eqb_spec (length ky) 1); [lia|]. now rewrite nth_error_map, Gb.
    + destruct (Nat.eqb_spec (length ky) 1) as [E2|E2]; [|split; [intros G; discriminate G|reflexivity]].
      split; [|intros _ _ H; contradiction]. intros G. injection G as <-. split; [auto|]. cbn [w_data]. eexists. split; [reflexivity|].
      destruct ky as [|k [|]]; try discriminate E2. cbn [nth length] in *.
      destruct (paired_nth w (map (fun i => (i, k)) kx) F) as [L N].
      { apply Forall_forall. intros [a b] H. apply in_map_iff in H. destruct H as (a' & H & I). injection H as <- <-. split; [now apply Bx|apply By; now left]. }
      rewrite L, map_length. split; [reflexivity|]. intros n a b Ln Ga Gb. apply N. unfold goes_with in Ga, Gb. cbn in Gb. injection Gb as <-.
      destruct (Nat.eqb_spec (length kx) 1); [lia|]. now rewrite nth_error_map, Ga.
Qed.
Example ex_pairs_one : sweep_get ex_sweep (Many (Ints [0; 2; 1]%Z)) (Some (Many (Ints [1]%Z))) = Ok (Build_sweep [0; 2; 1]%Q [20]%Q [[2; 6; 4]]).
Proof. reflexivity. Qed.
Example ex_pairs_refused : sweep_get ex_sweep (Many (Ints [0; 2; 1]%Z)) (Some (Many (Ints [1; 0]%Z))) = Throw.
Proof. reflexivity. Qed.

Theorem C89_refuted : ~ C89_claim.
Proof.
  intro H. destruct (H nat _ _ _ _ ex_fits ex_column) as (kx & ky & _ & _ & S). destruct S as [[L _] _]. discriminate L.
Qed.

(** [cropped] keeps the values in the closed limits and stays in shape. *)
Theorem C89_crop : forall (D : Type) (w : sweep D) lx ly, fits w ->
  shows w (sweep_cropped w lx ly) (crop_axis (w_x w) lx) (crop_axis (w_y w) ly) /\
  forall v lim k, In k (crop_axis v lim) <->
    k < length v /\ match lim with None => True | Some (lo, hi) => (lo <= nth k v 0 /\ nth k v 0 <= hi)%Q end.
Proof.
  intros D w lx ly F.
  assert (T : forall (bs : list bool) i k, In k (true_positions i bs) <-> i <= k /\ nth (k - i) bs false = true).
  { induction bs as [|b t IH]; intros i k; cbn [true_positions].
    - cbn. split; [easy|]. intros [_ N]. destruct (k - i); discriminate.
    - assert (A : In k (true_positions (S i) t) <-> i < k /\ nth (k - i) (b :: t) false = true).
      { rewrite IH. split; intros [P Q]; (split; [lia|]).
        - replace (k - i) with (S (k - S i)) by lia. exact Q.
        - replace (k - i) with (S (k - S i)) in Q by lia. exact Q. }
      destruct b; cbn [In]; rewrite A; split.
      + intros [->|[P Q]]; [split; [lia|now rewrite Nat.sub_diag]|split; [lia|exact Q]].
      + intros [P Q]. destruct (Nat.eq_dec i k); [now left|right; split; [lia|exact Q]].
      + intros [P Q]. split; [lia|exact Q].
      + intros [P Q]. split; [|exact Q]. destruct (Nat.eq_dec i k) as [->|]; [|lia]. rewrite Nat.sub_diag in Q. discriminate. }
  assert (M : forall v lim k, In k (crop_axis v lim) <->
    k < length v /\ match lim with None => True | Some (lo, hi) => (lo <= nth k v 0 /\ nth k v 0 <= hi)%Q end).
  { intros v [[lo hi]|] k; cbn [crop_axis]; [|rewrite in_seq; intuition lia].
    rewrite T, Nat.sub_0_r. destruct (Nat.lt_ge_cases k (length v)) as [L|L].
    - rewrite (nth_map_false _ v k 0%Q L), andb_true_iff, !Qle_bool_iff. intuition lia.
    - rewrite nth_overflow by (rewrite map_length; lia). intuition (lia || discriminate). }
  split; [|exact M]. unfold sweep_cropped. apply outer_shows; [exact F| |]; apply Forall_forall; intros k Hk; now apply M in Hk.
Qed.

(** The text file has the line (x_i, y_j, data_ij) at the place i * len y + j, and no other lines. *)
Theorem C89_text : forall (D : Type) (w : sweep D), fits w -> w_x w <> [] -> w_y w <> [] ->
  exists rows, text_rows w = Ok rows /\ length rows = length (w_x w) * length (w_y w) /\
    forall i j d, elem w i j = Some d ->
      nth_error rows (i * length (w_y w) + j) = Some (nth i (w_x w) 0%Q, nth j (w_y w) 0%Q, d).
Proof.
  intros D [x y m] [L F] Nx Ny. cbn [w_x w_y w_data] in *.
  unfold text_rows, x_grid, y_grid. cbn [w_x w_y w_data].
  replace (match y with [] => Throw | _ :: _ => Ok (map (fun v => map (fun _ => v) y) x) end)
    with (Ok (map (fun v => map (fun _ : Q => v) y) x)) by (now destruct y).
  replace (match x with [] => Throw | _ :: _ => Ok (map (fun _ => y) x) end)
    with (Ok (map (fun _ : Q => y) x)) by (now destruct x).
  cbn [obind omap]. eexists. split; [reflexivity|]. clear Nx Ny.
  revert m L F. induction x as [|v x IH]; intros m L F; destruct m as [|r m]; try discriminate L.
  - split; [reflexivity|]. intros i j d E. unfold elem in E. cbn in E. destruct i; discriminate.
  - inversion F as [|? ? Fr Fm]; subst. cbn in L. destruct (IH m ltac:(lia) Fm) as [IL IE]. clear IH.
    cbn [map concat].
    assert (CA : forall {A B} (a1 a2 : list A) (b1 b2 : list B), length a1 = length b1 ->
      combine (a1 ++ a2) (b1 ++ b2) = combine a1 b1 ++ combine a2 b2).
    { clear. induction a1 as [|p a1 IH]; intros a2 [|q b1] b2 E; try discriminate; [reflexivity|]. cbn. f_equal. apply IH. now injection E. }
    rewrite CA by now rewrite map_length. rewrite CA by (rewrite combine_length, map_length; lia).
    set (head := combine (combine (map (fun _ => v) y) y) r).
    assert (LH : length head = length y) by (unfold head; rewrite !combine_length, map_length; lia).
    split; [rewrite app_length, LH, IL; cbn; lia|].
    intros i j d E. destruct i as [|i].
    + unfold elem in E. cbn in E. assert (Lj : j < length y) by (rewrite <- Fr; apply nth_error_Some; congruence).
      rewrite nth_error_app1 by (cbn; lia). cbn [Nat.mul Nat.add nth].
      assert (Lr : j < length r) by lia.
      rewrite (nth_error_nth' head ((v, 0)%Q, d)) by lia. f_equal. unfold head.
      rewrite combine_nth by (rewrite combine_length, map_length; lia).
      rewrite combine_nth by now rewrite map_length.
      replace (nth j (map (fun _ : Q => v) y) v) with v by (symmetry; exact (map_nth (fun _ : Q => v) y 0%Q j)). f_equal.
      now apply nth_error_nth.
    + replace (S i * length y + j) with (length head + (i * length y + j)) by (rewrite LH; cbn; lia).
      rewrite nth_error_app2 by lia. replace (length head + (i * length y + j) - length head) with (i * length y + j) by lia.
      cbn [nth]. apply IE. exact E.
Qed.

(** Mirroring: the data is symmetric about the middle, [2n - 1] values, and the right half is the original. *)
Theorem C89_mirror : forall (D : Type) (w : sweep D), fits w -> w_x w <> [] ->
  exists w', mirrored w MX = Some w' /\ fits w' /\ w_y w' = w_y w /\
    let n := length (w_x w) in
    length (w_x w') = 2 * n - 1 /\
    forall i, i < n ->
      (nth (n - 1 - i) (w_x w') 0 == - nth i (w_x w) 0)%Q /\
      (0 < i -> nth (n - 1 + i) (w_x w') 0%Q = nth i (w_x w) 0%Q) /\
      forall j, elem w' (n - 1 - i) j = elem w i j /\ elem w' (n - 1 + i) j = elem w i j.
Proof.
  intros D w [L F] N. cbn [mirrored]. eexists. split; [reflexivity|].
  assert (LT : forall {A} (l : list A), length (tl l) = length l - 1) by (intros A [|? ?]; cbn; lia).
  assert (n0 : 0 < length (w_x w)) by (destruct (w_x w); [contradiction|cbn; lia]).
  assert (LX : length (map Qopp (rev (w_x w)) ++ tl (w_x w)) = 2 * length (w_x w) - 1)
    by (rewrite app_length, map_length, rev_length, LT; lia).
  split; [split; cbn [w_x w_y w_data]|].
  - rewrite LX, app_length, rev_length, LT, L. lia.
  - apply Forall_app. split; [apply Forall_rev; exact F|]. destruct (w_data w); [constructor|now inversion F].
  - cbn [w_x w_y w_data]. split; [reflexivity|]. split; [exact LX|]. intros i Li.
    assert (NT : forall {A} (l : list A) k d, nth k (tl l) d = nth (S k) l d) by (intros A [|? ?] [|?] d; reflexivity).
    split; [|split].
    + rewrite app_nth1 by (rewrite map_length, rev_length; lia).
      change 0%Q with (Qopp 0%Q) at 1. rewrite map_nth, rev_nth by lia.
      replace (length (w_x w) - S (length (w_x w) - 1 - i)) with i by lia. reflexivity.
    + intros Pi. rewrite app_nth2 by (rewrite map_length, rev_length; lia). rewrite map_length, rev_length, NT.
      f_equal. lia.
    + intros j. unfold elem. cbn [w_data]. rewrite <- L.
      assert (R : forall k, k < length (w_data w) -> nth_error (rev (w_data w)) k = nth_error (w_data w) (length (w_data w) - 1 - k)).
      { intros k Lk. rewrite (nth_error_nth' _ []) by now rewrite rev_length. rewrite rev_nth by lia.
        rewrite (nth_error_nth' (w_data w) []) by lia. do 2 f_equal. lia. }
      split.
      * rewrite nth_error_app1 by (rewrite rev_length; lia). rewrite R by lia.
        replace (length (w_data w) - 1 - (length (w_data w) - 1 - i)) with i by lia. reflexivity.
      * destruct (Nat.eq_dec i 0) as [->|Ni].
        -- rewrite Nat.add_0_r. rewrite nth_error_app1 by (rewrite rev_length; lia). rewrite R by lia. rewrite Nat.sub_diag. reflexivity.
        -- rewrite nth_error_app2 by (rewrite rev_length; lia). rewrite rev_length.
           assert (NE : forall {A} (l : list A) k, nth_error (tl l) k = nth_error l (S k)) by (intros A [|? ?] [|?]; reflexivity).
           rewrite NE. replace (S (length (w_data w) - 1 + i - length (w_data w))) with i by lia. reflexivity.
Qed.

(** The value at the first x is moved to its negative: an axis that does not start at 0 loses that point. *)
Example C89_mirror_start : omap w_x (match mirrored (Build_sweep [1; 2]%Q [0]%Q [[7]; [8]]) MX with Some w => Ok w | None => Throw end)
  = Ok [- (2); - (1); 2]%Q.
Proof. reflexivity. Qed.
(** An unknown axis gives None instead of an exception. *)
Theorem C89_mirror_unknown : forall (D : Type) (w : sweep D), mirrored w MOther = None.
Proof. reflexivity. Qed.

(** The slice nearest to a value. *)
Theorem C89_slice : forall (D : Type) (w : sweep D) v row x, fits w -> slice_x w v = Ok (row, x) ->
  exists i, i < length (w_x w) /\ row = nth i (w_data w) [] /\ x = nth i (w_x w) 0%Q /\
    forall j, j < length (w_x w) -> (Qabs' (x - v) <= Qabs' (nth j (w_x w) 0 - v))%Q.
Proof.
  intros D w v row x F H. unfold slice_x in H. apply obind_ok in H. destruct H as [i [A E]]. injection E as <- <-.
  apply argmin_spec in A. destruct A as (L & M & _). rewrite map_length in L, M.
  exists i. split; [exact L|]. split; [reflexivity|]. split; [reflexivity|]. intros j Lj. specialize (M j Lj).
  set (g := fun x => Some (Qabs' (x - v)%Q)) in M.
  rewrite (nth_indep _ None (g 0%Q)) in M by now rewrite map_length.
  rewrite (nth_indep (map g (w_x w)) None (g 0%Q)) in M by now rewrite map_length.
  rewrite !map_nth in M. unfold g, ole, olt in M. apply Qnot_lt_le. intro T. apply Qltb_lt in T. congruence.
Qed.

Example ex_text : text_rows ex_sweep = Ok [(0%Q, 10%Q, 1); (0%Q, 20%Q, 2); (1%Q, 10%Q, 3); (1%Q, 20%Q, 4); (2%Q, 10%Q, 5); (2%Q, 20%Q, 6)].
Proof. reflexivity. Qed.
Example ex_crop_sweep : sweep_cropped ex_sweep (Some (1, 2)%Q) None = Build_sweep [1; 2]%Q [10; 20]%Q [[3; 4]; [5; 6]].
Proof. reflexivity. Qed.
Example ex_mirror : mirrored ex_sweep MX = Some (Build_sweep [- (2); - (1); - 0; 1; 2]%Q [10; 20]%Q [[5; 6]; [3; 4]; [1; 2]; [3; 4]; [5; 6]]).
Proof. reflexivity. Qed.
Example ex_slice_x : slice_x ex_sweep (6 # 4)%Q = Ok ([3; 4], 1%Q).
Proof. reflexivity. Qed.
