(* C83: orbitals per site handed to kwant. *)
From Verif Require Import Base Rle TablesSpec RleProofs Kwant.

(** The number of orbitals of every site, for every table of sublattices that passes the checks of C++ (the
    entries are ordered by their orbitals, ids occur once). *)
Definition C83_claim : Prop := forall d, is_sorted (orbital_counts d) = true -> NoDup (map e_id d) -> to_norb d = Ok (map snd (site_list d)).

Lemma take_at_ok : forall {X} (a : list X) (f : nat -> X) idx, (forall i, In i idx -> nth_error a i = Some (f i)) -> take_at a idx = Ok (map f idx).
Proof. induction idx as [|i t IH]; intro H; cbn; [reflexivity|]. rewrite (H i) by (now left). rewrite IH by (intros; apply H; now right). reflexivity. Qed.
Lemma take_at_map : forall {X Y} (a : list X) (g : Y -> nat) (h : Y -> X) l, take_at a (map g l) = Ok (map h l) <-> forall y, In y l -> nth_error a (g y) = Some (h y).
Proof.
  induction l as [|y l IH]; cbn; split; intro H; auto; try (intros ? []; fail).
  - intros z Hz. destruct (nth_error a (g y)) as [x|] eqn:E; [|discriminate H].
    destruct (take_at a (map g l)) as [r| |] eqn:R; try discriminate H. cbn in H. injection H as -> ->.
    destruct Hz as [<-|Hz]; [exact E|]. apply IH; auto.
  - rewrite (H y) by (now left). destruct IH as [_ IH]. rewrite IH by (intros; apply H; now right). reflexivity.
Qed.
Lemma take_at_throw : forall {X} (a : list X) idx i, In i idx -> length a <= i -> take_at a idx = Throw.
Proof.
  induction idx as [|j t IH]; intros i H L; [destruct H|]. cbn. destruct H as [->|H].
  - now rewrite (proj2 (nth_error_None a i) L).
  - destruct (nth_error a j); [|reflexivity]. now rewrite (IH i).
Qed.

Lemma in_site_list : forall d e, In e d -> 0 < e_num e -> In (e_id e, e_norb e) (site_list d).
Proof. intros d e H P. unfold site_list. apply in_flat_map. exists e. split; [exact H|]. destruct (e_num e); [lia|now left]. Qed.
Lemma site_list_in : forall d y, In y (site_list d) -> exists e, In e d /\ 0 < e_num e /\ y = (e_id e, e_norb e).
Proof. intros d y H. unfold site_list in H. apply in_flat_map in H. destruct H as [e [H1 H2]]. exists e. split; [exact H1|]. destruct (e_num e); [destruct H2|]. split; [lia|]. apply repeat_spec in H2. exact H2. Qed.

(** Right exactly if the id of every sublattice is the place of its entry, up to sublattices of the same number of orbitals. *)
Theorem C83_exact : forall d, to_norb d = Ok (map snd (site_list d)) <->
  forall e, In e d -> 0 < e_num e -> nth_error (map e_norb d) (e_id e) = Some (e_norb e).
Proof.
  intro d. unfold to_norb. rewrite decompressed_labels. change (labels d) with (site_list d). rewrite take_at_map. unfold orbital_counts. split.
  - intros H e He HP. exact (H _ (in_site_list d e He HP)).
  - intros H y Hy. apply site_list_in in Hy. destruct Hy as [e [H1 [H2 ->]]]. now apply H.
Qed.
Theorem C83_partial : forall d, map e_id d = seq 0 (length d) -> to_norb d = Ok (map snd (site_list d)).
Proof.
  intros d H. apply C83_exact. intros e He _. destruct (In_nth_error _ _ He) as [k Hk].
  assert (K : k < length d) by (apply nth_error_Some; congruence).
  assert (E : nth_error (map e_id d) k = Some (e_id e)) by now rewrite nth_error_map, Hk.
  rewrite H, nth_error_nth' with (d := 0) in E by now rewrite seq_length. rewrite seq_nth in E by exact K. injection E as <-.
  now rewrite nth_error_map, Hk.
Qed.
(** The same number of orbitals everywhere and no sublattice missing. *)
Theorem C83_uniform_partial : forall d n, (forall e, In e d -> e_norb e = n /\ e_id e < length d) -> to_norb d = Ok (map snd (site_list d)).
Proof.
  intros d n H. apply C83_exact. intros e He _. destruct (H e He) as [HN HI].
  rewrite nth_error_map. destruct (nth_error d (e_id e)) as [e'|] eqn:E; [|apply nth_error_None in E; lia].
  cbn. f_equal. apply nth_error_In in E. destruct (H _ E). lia.
Qed.
(** A sublattice without sites shifts the entries: an id past the end raises. *)
Theorem C83_throws : forall d e, In e d -> 0 < e_num e -> length d <= e_id e -> to_norb d = Throw.
Proof.
  intros d e He HP HL. unfold to_norb. rewrite decompressed_labels. apply take_at_throw with (e_id e).
  - change (labels d) with (site_list d). apply in_map_iff. exists (e_id e, e_norb e). split; [reflexivity|]. now apply in_site_list.
  - unfold orbital_counts. now rewrite map_length.
Qed.
(** Sublattice A with two orbitals, B with one (C++ puts B first): the numbers are exchanged, and their sum is
    not even the size of the Hamiltonian when the numbers of sites differ. *)
Theorem C83_refuted : ~ C83_claim.
Proof.
  intro C. specialize (C [Elem 1 3 1; Elem 0 1 2] eq_refl). cbn in C.
  assert (N : NoDup [1; 0]) by (repeat constructor; cbn; intuition lia). specialize (C N). vm_compute in C. discriminate C.
Qed.
Example C83_example :
  to_norb [Elem 0 3 1; Elem 1 1 2] = Ok [1; 1; 1; 2] /\
  to_norb [Elem 1 3 1; Elem 0 1 2] = Ok [2; 2; 2; 1] /\
  map snd (site_list [Elem 1 3 1; Elem 0 1 2]) = [1; 1; 1; 2] /\
  to_norb [Elem 1 2 1] = Throw.
Proof. vm_compute. auto. Qed.

(** ** The Hamiltonian of two sites *)
(** What kwant asks for: the block of the orbitals of site [i] and those of site [j].  The orbitals of the
    sites follow each other in the matrix. *)
Definition norb_at (d : rle) (i : nat) : nat := nth i (map snd (site_list d)) 0.
Definition first_orbital (d : rle) (i : nat) : nat := list_sum (firstn i (map snd (site_list d))).
Definition site_block {X} (d : rle) (ham : nat -> nat -> X) (i j : nat) : list (list X) :=
  map (fun r => map (fun c => ham (first_orbital d i + r) (first_orbital d j + c)) (seq 0 (norb_at d j))) (seq 0 (norb_at d i)).
Definition C83_block_claim : Prop := forall X d (ham : nat -> nat -> X) i j, is_sorted (orbital_counts d) = true ->
  i < length (site_list d) -> j < length (site_list d) ->
  kwant_hamiltonian (list_sum (map snd (site_list d))) ham i j = Ok (site_block d ham i j).

Lemma sum_ones : forall l i, (forall x, In x l -> x = 1) -> i <= length l -> list_sum (firstn i l) = i.
Proof.
  induction l as [|x l IH]; intros [|i] H L; cbn in *; try reflexivity; try lia.
  rewrite (H x) by now left. unfold list_sum in IH. rewrite IH; [reflexivity|auto|lia].
Qed.
(** One orbital per site. *)
Theorem C83_block_partial : forall X d (ham : nat -> nat -> X) i j, (forall e, In e d -> e_norb e = 1) ->
  i < length (site_list d) -> j < length (site_list d) ->
  kwant_hamiltonian (list_sum (map snd (site_list d))) ham i j = Ok (site_block d ham i j).
Proof.
  intros X d ham i j H Hi Hj.
  assert (One : forall x, In x (map snd (site_list d)) -> x = 1).
  { intros x Hx. apply in_map_iff in Hx. destruct Hx as [y [<- Hy]]. apply site_list_in in Hy. destruct Hy as [e [He [_ ->]]]. cbn. now apply H. }
  assert (S : list_sum (map snd (site_list d)) = length (site_list d)).
  { rewrite <- (firstn_all (map snd (site_list d))). rewrite map_length. apply sum_ones; [exact One|now rewrite map_length]. }
  assert (F : forall k, k < length (site_list d) -> first_orbital d k = k) by (intros k K; apply sum_ones; [exact One|rewrite map_length; lia]).
  assert (N : forall k, k < length (site_list d) -> norb_at d k = 1) by (intros k K; apply One, nth_In; now rewrite map_length).
  unfold kwant_hamiltonian. rewrite S. rewrite (proj2 (Nat.ltb_lt i _) Hi), (proj2 (Nat.ltb_lt j _) Hj). cbn [andb].
  unfold site_block. rewrite (N i Hi), (N j Hj), (F i Hi), (F j Hj). cbn [seq map]. now rewrite !Nat.add_0_r.
Qed.
(** With more orbitals the answer has the wrong shape: right exactly if both sites have one orbital and all
    sites before them have one (or the elements happen to agree). *)
Theorem C83_block_exact : forall X d (ham : nat -> nat -> X) i j, i < length (site_list d) -> j < length (site_list d) ->
  kwant_hamiltonian (list_sum (map snd (site_list d))) ham i j = Ok (site_block d ham i j) <->
  norb_at d i = 1 /\ norb_at d j = 1 /\ i < list_sum (map snd (site_list d)) /\ j < list_sum (map snd (site_list d)) /\
  ham i j = ham (first_orbital d i) (first_orbital d j).
Proof.
  intros X d ham i j Hi Hj. unfold kwant_hamiltonian, site_block. split.
  - intro H. destruct (i <? _) eqn:Li; [|discriminate H]. destruct (j <? _) eqn:Lj; [|discriminate H]. cbn [andb] in H.
    apply Nat.ltb_lt in Li. apply Nat.ltb_lt in Lj. injection H as H.
    destruct (norb_at d i) as [|[|a]] eqn:A; cbn [seq map] in H; try discriminate H.
    destruct (norb_at d j) as [|[|b]] eqn:B; cbn [seq map] in H; try discriminate H.
    injection H as H. rewrite !Nat.add_0_r in H. auto.
  - intros (A & B & Li & Lj & H). rewrite A, B, (proj2 (Nat.ltb_lt i _) Li), (proj2 (Nat.ltb_lt j _) Lj). cbn. now rewrite !Nat.add_0_r, H.
Qed.
Theorem C83_block_refuted : ~ C83_block_claim.
Proof.
  intro C. specialize (C nat [Elem 0 1 1; Elem 1 2 2] (fun r c => 10 * r + c) 1 2 eq_refl). cbn in C.
  specialize (C ltac:(lia) ltac:(lia)). vm_compute in C. discriminate C.
Qed.
(** Sites with one and two orbitals: sites 1 and 2 have the orbitals 1, 2 and 3, 4. *)
Example C83_block_example : let d := [Elem 0 1 1; Elem 1 2 2] in let ham := fun r c => 10 * r + c in
  site_block d ham 1 2 = [[13; 14]; [23; 24]] /\ kwant_hamiltonian 5 ham 1 2 = Ok [[12]] /\
  kwant_hamiltonian 5 ham 0 0 = Ok (site_block d ham 0 0).
Proof. vm_compute. auto. Qed.
