(* C122: plots of eigenvalues *)
From Coq Require Import String.
From Verif Require Import Base Scalar Rle RSum Cplx SolverPost SolverPostProofs PropsPost HeatMap.
From Coq Require Import Reals Lra Lia List Sorted Permutation.
Local Open Scope R_scope.
Local Open Scope list_scope.

(* ------------------------------------------------ specification *)
(** argsort: every index once, in the order of the elements *)
Definition sorts (sort : list R -> list nat) : Prop :=
  forall l, Permutation (sort l) (seq 0 (length l)) /\ StronglySorted (fun i j => nth i l 0 <= nth j l 0) (sort l).
(** One option for state [i]: that of the user, else the default *)
Definition for_state {A} (user : option (per A)) (d : A) (i : nat) : A :=
  match user with None => d | Some (One x) => x | Some (Each l) => nth i l d end.
Definition fits {A} (n : nat) (user : option (per A)) : Prop := match user with Some (Each l) => length l = n | _ => True end.
Definition single {A} (user : option (per A)) : Prop := match user with Some (Each _) => False | _ => True end.
Definition largest (m : R) (l : list R) : Prop := In m l /\ forall x, In x l -> x <= m.
Definition densities (l : list R) : Prop := (forall p, In p l -> 0 <= p) /\ exists p, In p l /\ p <> 0.
(** The dot of state [i] *)
Definition own_dot (vals prob : list R) (size : R * R) (m : R) (c : option (per colour)) (s : option (per R)) (i : nat) : dot :=
  Dot i (nth i vals 0) (for_state c (Mapped (nth i prob 0)) i) (for_state s (fst size + snd size * (nth i prob 0 / m)) i).

(* ------------------------------------------------ lemmas *)
Lemma fold_max : forall r x, let m := fold_left Rmax r x in (m = x \/ In m r) /\ x <= m /\ forall y, In y r -> y <= m.
Proof.
  induction r as [|y r IH]; intros x; cbn; [repeat split; [left; reflexivity|lra|intros y []]|].
  destruct (IH (Rmax x y)) as (A & B & C). cbn in A, B, C. pose proof (Rmax_l x y). pose proof (Rmax_r x y). repeat split.
  - destruct A as [A|A]; [|right; right; exact A]. rewrite A. unfold Rmax. destruct (Rle_dec x y); [right; left; reflexivity|left; reflexivity].
  - lra.
  - intros z [->|Hz]; [lra|apply C, Hz].
Qed.
Lemma maximum_largest : forall l, l <> [] -> largest (maximum l) l.
Proof.
  intros [|x r] H; [contradiction|]. destruct (fold_max r x) as (A & B & C). cbn in *. split.
  - destruct A as [A|A]; [left; symmetry; exact A|right; exact A].
  - intros y [<-|Hy]; [exact B|apply C, Hy].
Qed.
Lemma largest_unique : forall m m' l l', (forall x, In x l <-> In x l') -> largest m l -> largest m' l' -> m = m'.
Proof. intros m m' l l' E [A B] [C D]. apply Rle_antisym; [apply D, E, A|apply B, E, C]. Qed.
Lemma pick_map : forall A (v : list A) d idx, (forall i, In i idx -> (i < length v)%nat) -> pick v idx = Ok (map (fun i => nth i v d) idx).
Proof.
  intros A v d idx. induction idx as [|i r IH]; intros H; [reflexivity|]. cbn [pick map].
  rewrite (nth_error_nth' v d) by (apply H; left; reflexivity). rewrite IH by (intros j Hj; apply H; right; exact Hj). reflexivity.
Qed.
Lemma zip_map : forall idx (fx : nat -> nat) fy fc fs,
  zip (map fx idx) (map fy idx) (map fc idx) (map fs idx) = map (fun i => Dot (fx i) (fy i) (fc i) (fs i)) idx.
Proof. induction idx as [|i r IH]; intros fx fy fc fs; [reflexivity|]. cbn. rewrite IH. reflexivity. Qed.
Lemma repeat_map : forall A B (x : A) (l : list B), repeat x (length l) = map (fun _ => x) l.
Proof. intros A B x l. induction l as [|y r IH]; [reflexivity|]. cbn. rewrite IH. reflexivity. Qed.
Lemma map_seq_nth : forall A (l : list A) d, map (fun i => nth i l d) (seq 0 (length l)) = l.
Proof.
  intros A l d. induction l as [|x r IH]; [reflexivity|]. cbn [length seq map nth]. f_equal. rewrite <- seq_shift, map_map. exact IH.
Qed.
(** Each dot of the scatter plot, for options that are given for all dots or made for the list [idx] *)
Lemma spread_single : forall A (u : option (per A)) (f : nat -> A) idx, single u ->
  spread (length idx) (default u (Each (map f idx))) = Ok (map (fun i => for_state u (f i) i) idx).
Proof.
  intros A u f idx H. destruct u as [[x|l]|]; cbn in *; [rewrite repeat_map; reflexivity|contradiction|]. rewrite map_length, Nat.eqb_refl. reflexivity.
Qed.
Lemma zeros : forall l, forallb zero l = true <-> forall p, In p l -> p = 0.
Proof. intros l. rewrite forallb_forall. split; intros H p I; specialize (H p I); unfold zero in *; destruct (Req_EM_T p 0); congruence. Qed.
Lemma densities_max : forall l, densities l -> l <> [] /\ 0 < maximum l /\ forallb zero l = false.
Proof.
  intros l [N (p & I & Z)]. assert (E : l <> []) by (intros ->; exact I). split; [exact E|].
  destruct (maximum_largest l E) as [_ M]. specialize (M p I). specialize (N p I). split; [lra|].
  destruct (forallb zero l) eqn:F; [|reflexivity]. exfalso. apply Z. apply zeros with l; assumption.
Qed.
Lemma sorted_map : forall A B (f : A -> B) (R : A -> A -> Prop) (S : B -> B -> Prop) l, (forall x y, R x y -> S (f x) (f y)) ->
  StronglySorted R l -> StronglySorted S (map f l).
Proof.
  intros A B f R S l H. induction 1 as [|x l H1 IH H2]; cbn; constructor; [exact IH|]. apply Forall_map. eapply Forall_impl; [|exact H2]. intros y. apply H.
Qed.

(* ------------------------------------------------ theorems *)
(** Where every dot is drawn, and its options in the order of drawing *)
Lemma heat_dots : forall sort vals prob size c s, sorts sort -> length prob = length vals -> densities prob -> single c -> single s ->
  plot_heatmap sort vals prob size c s = Ok (map (own_dot vals prob size (maximum prob) c s) (sort prob), Some (maximum prob)).
Proof.
  intros sort vals prob size c s Hs L D Sc Ss. destruct (densities_max prob D) as (E & M & F). unfold plot_heatmap. rewrite F. cbn zeta.
  destruct (Hs prob) as [P _].
  assert (B : forall i, In i (sort prob) -> (i < length vals)%nat).
  { intros i I. apply (Permutation_in _ P) in I. apply in_seq in I. lia. }
  rewrite (pick_map nat (seq 0 (length vals)) 0%nat) by (intros i I; rewrite seq_length; apply B, I). cbn [obind].
  rewrite (pick_map R vals 0) by exact B. cbn [obind]. rewrite (pick_map R prob 0) by (intros i I; rewrite L; apply B, I). cbn [obind].
  assert (Em : maximum (map (fun i => nth i prob 0) (sort prob)) = maximum prob).
  { apply largest_unique with (map (fun i => nth i prob 0) (sort prob)) prob; [|apply maximum_largest|apply maximum_largest; exact E].
    - intros x. rewrite <- (map_seq_nth R prob 0) at 2. split; apply Permutation_in; apply Permutation_map; [|symmetry]; exact P.
    - intros Z. apply map_eq_nil in Z. rewrite Z in P. apply Permutation_length in P. rewrite seq_length in P. destruct prob; [contradiction|discriminate]. }
  rewrite Em, !map_map. unfold scatter. rewrite map_length. rewrite (spread_single _ c) by exact Sc. cbn [obind].
  rewrite (spread_single _ s) by exact Ss. unfold omap. cbn [obind]. rewrite zip_map. f_equal. f_equal. apply map_ext_in. intros i I.
  unfold own_dot. f_equal; [rewrite seq_nth by (apply B, I); lia|]. unfold Rdiv. f_equal. ring.
Qed.

(** Every state has exactly one dot, with its energy, colour and size. *)
Definition C122_claim : Prop := forall sort vals prob size c s, sorts sort -> length prob = length vals -> densities prob ->
  fits (length vals) c -> fits (length vals) s ->
  exists ds m, plot_heatmap sort vals prob size c s = Ok (ds, Some m) /\ largest m prob /\
    Permutation ds (map (own_dot vals prob size m c s) (seq 0 (length vals))) /\
    (** the larger densities are drawn later, above the others *)
    StronglySorted (fun d e => nth (d_state d) prob 0 <= nth (d_state e) prob 0) ds.

Theorem C122_partial : forall sort vals prob size c s, sorts sort -> length prob = length vals -> densities prob ->
  single c -> single s ->
  exists ds m, plot_heatmap sort vals prob size c s = Ok (ds, Some m) /\ largest m prob /\
    Permutation ds (map (own_dot vals prob size m c s) (seq 0 (length vals))) /\
    StronglySorted (fun d e => nth (d_state d) prob 0 <= nth (d_state e) prob 0) ds.
Proof.
  intros sort vals prob size c s Hs L D Sc Ss. exists (map (own_dot vals prob size (maximum prob) c s) (sort prob)), (maximum prob).
  destruct (Hs prob) as [P Q]. split; [apply heat_dots; assumption|]. split; [apply maximum_largest, densities_max, D|].
  split; [apply Permutation_map; rewrite <- L; exact P|]. eapply sorted_map; [|exact Q]. intros i j H. exact H.
Qed.

(** The sizes of the dots are from [fst size] to [fst size + snd size]; the largest density has the largest dot. *)
Theorem C122_sizes : forall sort vals prob size c ds m, sorts sort -> length prob = length vals -> densities prob -> single c ->
  0 <= snd size -> plot_heatmap sort vals prob size c None = Ok (ds, Some m) ->
  (forall d, In d ds -> fst size <= d_size d <= fst size + snd size) /\
  (exists d, In d ds /\ nth (d_state d) prob 0 = m /\ d_size d = fst size + snd size) /\
  (forall d e, In d ds -> In e ds -> nth (d_state d) prob 0 <= nth (d_state e) prob 0 -> d_size d <= d_size e).
Proof.
  intros sort vals prob size c ds m Hs L D Sc S0 E. rewrite heat_dots in E by (try assumption; exact I). injection E as <- <-.
  destruct (densities_max prob D) as (N & M & _). destruct (maximum_largest prob N) as [M1 M2]. destruct (Hs prob) as [P _].
  assert (B : forall i, In i (sort prob) -> In (nth i prob 0) prob).
  { intros i I. apply nth_In. apply (Permutation_in _ P) in I. apply in_seq in I. lia. }
  assert (Mono : forall x y, x <= y -> snd size * (x / maximum prob) <= snd size * (y / maximum prob)).
  { intros x y H. apply Rmult_le_compat_l; [exact S0|]. unfold Rdiv. apply Rmult_le_compat_r; [|exact H]. left. apply Rinv_0_lt_compat, M. }
  split; [|split].
  - intros d I. apply in_map_iff in I. destruct I as (i & <- & I). cbn. specialize (B i I). destruct D as [D0 _].
    pose proof (Mono 0 (nth i prob 0) (D0 _ B)) as A1. pose proof (Mono _ _ (M2 _ B)) as A2.
    replace (maximum prob / maximum prob) with 1 in A2 by (field; lra). replace (0 / maximum prob) with 0 in A1 by (field; lra). lra.
  - apply (In_nth _ _ 0) in M1. destruct M1 as (i & I & Ei). exists (own_dot vals prob size (maximum prob) c None i). split.
    + apply in_map. apply (Permutation_in _ (Permutation_sym P)). apply in_seq. lia.
    + cbn. split; [exact Ei|]. rewrite Ei. field. lra.
  - intros d e Id Ie H. apply in_map_iff in Id, Ie. destruct Id as (i & <- & Id), Ie as (j & <- & Ie). cbn in *. specialize (Mono _ _ H). lra.
Qed.

(** Without probabilities: every state in order, no result *)
Theorem C122_plain : forall sort vals prob size c s, (forall p, In p prob -> p = 0) ->
  plot_heatmap sort vals prob size c s =
  if match c with Some (Each l) => Nat.eqb (length l) (length vals) | _ => true end &&
     match s with Some (Each l) => Nat.eqb (length l) (length vals) | _ => true end
  then Ok (map (fun i => Dot i (nth i vals 0) (for_state c (Named "#377ec8"%string) i) (for_state s 15 i)) (seq 0 (length vals)), None)
  else Throw.
Proof.
  intros sort vals prob size c s Z. unfold plot_heatmap. rewrite (proj2 (zeros prob) Z). unfold plot_values, scatter. rewrite seq_length.
  assert (K : forall A (u : option (per A)) (d : A), spread (length vals) (default u (One d)) =
            if match u with Some (Each l) => Nat.eqb (length l) (length vals) | _ => true end
            then Ok (map (fun i => for_state u d i) (seq 0 (length vals))) else Throw).
  { intros A u d. destruct u as [[x|l]|]; cbn.
    - rewrite <- repeat_map, seq_length. reflexivity.
    - destruct (Nat.eqb_spec (length l) (length vals)) as [El|_]; [|reflexivity]. rewrite <- El, map_seq_nth. reflexivity.
    - rewrite <- repeat_map, seq_length. reflexivity. }
  rewrite !K. destruct (match c with Some (Each l) => _ | _ => _ end); [|reflexivity]. cbn [obind andb].
  destruct (match s with Some (Each l) => _ | _ => _ end); [|reflexivity]. unfold omap. cbn [obind]. f_equal. f_equal.
  rewrite <- (map_seq_nth R vals 0) at 2. rewrite <- (map_id (seq 0 (length vals))) at 1. rewrite zip_map. reflexivity.
Qed.

(** The lines are those of the maximal runs of close levels, from the first dot to the last. *)
Theorem C122_lines : forall vals p q,
  In (p, q) (lines vals) <-> maximal_run vals (/ 100000) (fst p) (fst q) /\ snd p = nth (fst p) vals 0 /\ snd q = nth (fst q) vals 0.
Proof.
  intros vals p q. unfold lines. rewrite in_map_iff.
  assert (K : forall a b, (a < b)%nat -> hd 0%nat (seq a (b - a + 1)) = a /\ last (seq a (b - a + 1)) 0%nat = b).
  { intros a b H. split; [rewrite Nat.add_1_r; reflexivity|]. rewrite Nat.add_1_r, seq_S, last_last. lia. }
  destruct (C58 vals (/ 100000)) as [G _]. split.
  - intros (g & E & I). apply G in I. destruct I as (a & b & M & ->). destruct (K a b) as [Ka Kb]; [destruct M as [M _]; lia|].
    rewrite Ka, Kb in E. injection E as <- <-. cbn. auto.
  - intros (M & E1 & E2). exists (seq (fst p) (fst q - fst p + 1)). destruct (K (fst p) (fst q)) as [Ka Kb]; [destruct M as [M _]; lia|].
    rewrite Ka, Kb. split; [destruct p, q; cbn in *; congruence|]. apply G. eauto.
Qed.
Theorem C122_numbers : forall vals i p, In (i, p) (numbers vals) <-> p = (i, nth i vals 0) /\ (i < length vals)%nat.
Proof.
  intros vals i p. unfold numbers. rewrite in_map_iff.
  assert (E : combine (seq 0 (length vals)) vals = map (fun i => (i, nth i vals 0)) (seq 0 (length vals))).
  { rewrite <- (map_seq_nth R vals 0) at 2. generalize (seq 0 (length vals)). induction l as [|x r IH]; [reflexivity|]. cbn. rewrite IH. reflexivity. }
  rewrite E. split.
  - intros ([j e] & X & I). apply in_map_iff in I. destruct I as (k & Y & I). apply in_seq in I. injection Y as <- <-. cbn in X. injection X as <- <-. split; [reflexivity|lia].
  - intros [-> L]. exists (i, nth i vals 0). split; [reflexivity|]. apply in_map_iff. exists i. split; [reflexivity|]. apply in_seq. lia.
Qed.

(* ------------------------------------------------ there is such a sort *)
Fixpoint put (l : list R) (i : nat) (r : list nat) : list nat :=
  match r with [] => [i] | j :: t => if Rle_dec (nth i l 0) (nth j l 0) then i :: r else j :: put l i t end.
Definition one_sort (l : list R) : list nat := fold_right (put l) [] (seq 0 (length l)).
Lemma put_perm : forall l i r, Permutation (put l i r) (i :: r).
Proof.
  intros l i r. induction r as [|j t IH]; [reflexivity|]. cbn. destruct (Rle_dec _ _); [reflexivity|]. rewrite IH. apply perm_swap.
Qed.
Lemma put_sorted : forall l i r, StronglySorted (fun i j => nth i l 0 <= nth j l 0) r -> StronglySorted (fun i j => nth i l 0 <= nth j l 0) (put l i r).
Proof.
  intros l i r. induction 1 as [|j t H1 IH H2]; cbn; [repeat constructor|]. destruct (Rle_dec (nth i l 0) (nth j l 0)) as [A|A].
  - constructor; [constructor; assumption|]. constructor; [exact A|]. eapply Forall_impl; [|exact H2]. cbn. intros k. lra.
  - constructor; [exact IH|]. eapply Permutation_Forall; [symmetry; apply put_perm|]. constructor; [lra|exact H2].
Qed.
Lemma one_sort_sorts : sorts one_sort.
Proof.
  intros l. unfold one_sort. generalize (seq 0 (length l)) as r. induction r as [|i r [P Q]]; [split; constructor|]. cbn. split.
  - rewrite put_perm. constructor. exact P.
  - apply put_sorted, Q.
Qed.
Lemma sort_two : forall sort a b, sorts sort -> b < a -> sort [a; b] = [1; 0]%nat.
Proof.
  intros sort a b H L. destruct (H [a; b]) as [P Q]. cbn [length seq] in P. apply Permutation_sym, Permutation_length_2_inv in P. destruct P as [E|E]; [|exact E].
  rewrite E in Q. inversion Q as [|? ? _ Q2]; subst. inversion Q2 as [|? ? Q3 _]; subst. cbn in Q3. lra.
Qed.
Lemma two_densities : densities [1; 0].
Proof. split; [intros p [<-|[<-|[]]]; lra|]. exists 1. split; [left; reflexivity|lra]. Qed.

(** Sizes that the user gives for the states go to other states: the dots are drawn in another order. *)
Theorem C122_refuted : ~ C122_claim.
Proof.
  intros H. destruct (H one_sort [3; 4] [1; 0] (7, 77) None (Some (Each [10; 20])) one_sort_sorts eq_refl two_densities I eq_refl) as (ds & m & E & _ & P & _).
  unfold plot_heatmap in E. destruct (densities_max _ two_densities) as (_ & _ & F). rewrite F in E. cbn zeta in E.
  rewrite (sort_two one_sort 1 0 one_sort_sorts ltac:(lra)) in E. cbn [pick nth_error length seq omap obind map] in E. unfold scatter in E. cbn in E.
  injection E as <- _. cbn in P.
  assert (J : In (own_dot [3; 4] [1; 0] (7, 77) m None (Some (Each [10; 20])) 0) (map (own_dot [3; 4] [1; 0] (7, 77) m None (Some (Each [10; 20]))) [0; 1]%nat)) by (left; reflexivity).
  apply (Permutation_in _ (Permutation_sym P)) in J. cbn in J. destruct J as [J|[J|[]]]; [discriminate J|]. apply (f_equal d_size) in J. cbn in J. lra.
Qed.

(** The documentation: [size] is the smallest and the largest size of a dot. *)
Definition C122_size_claim : Prop := forall sort vals prob size ds m, sorts sort -> length prob = length vals -> densities prob ->
  0 <= fst size <= snd size -> plot_heatmap sort vals prob size None None = Ok (ds, Some m) ->
  forall d, In d ds -> fst size <= d_size d <= snd size.
Theorem C122_size_refuted : ~ C122_size_claim.
Proof.
  intros H. pose proof (heat_dots one_sort [3; 4] [1; 0] (7, 77) None None one_sort_sorts eq_refl two_densities I I) as E.
  assert (S0 : 0 <= snd (7, 77)) by (cbn; lra). assert (S1 : 0 <= fst (7, 77) <= snd (7, 77)) by (cbn; lra).
  pose proof (C122_sizes one_sort [3; 4] [1; 0] (7, 77) None _ _ one_sort_sorts eq_refl two_densities I S0 E) as (_ & (d & J & _ & S) & _).
  specialize (H one_sort [3; 4] [1; 0] (7, 77) _ _ one_sort_sorts eq_refl two_densities S1 E d J). cbn in H, S. lra.
Qed.

(** The state without density is drawn first with the smallest dot. *)
Example C122_example : forall sort, sorts sort ->
  plot_heatmap sort [3; 4] [1; 0] (7, 77) None None = Ok ([Dot 1 4 (Mapped 0) 7; Dot 0 3 (Mapped 1) 84], Some 1).
Proof.
  intros sort H. rewrite heat_dots by (try exact I; try reflexivity; try exact H; exact two_densities). rewrite (sort_two sort 1 0 H) by lra.
  assert (M : maximum [1; 0] = 1) by (cbn; unfold Rmax; destruct (Rle_dec 1 0); lra). rewrite M. unfold own_dot. cbn. repeat f_equal; field.
Qed.
