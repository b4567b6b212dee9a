From Verif Require Import Base Scalar Rle RleProofs RSum Cplx SolverPost.
From Coq Require Import Reals Lra Permutation Sorted.
Local Open Scope R_scope.

(* ---------------- sums ---------------- *)
Lemma lsum_app : forall a b, lsum (a ++ b) = lsum a + lsum b.
Proof. induction a as [|x a IH]; intros b; cbn; [unfold lsum; cbn; ring|]. unfold lsum in *. rewrite IH. ring. Qed.
Lemma lsum_scal : forall {A} c (f : A -> R) l, lsum (map (fun a => c * f a) l) = c * lsum (map f l).
Proof. intros A c f l. induction l as [|a l IH]; cbn; [unfold lsum; cbn; ring|]. unfold lsum in *. rewrite IH. ring. Qed.
Lemma lsum_scal_r : forall {A} c (f : A -> R) l, lsum (map (fun a => f a * c) l) = lsum (map f l) * c.
Proof. intros A c f l. induction l as [|a l IH]; cbn; [unfold lsum; cbn; ring|]. unfold lsum in *. rewrite IH. ring. Qed.
Lemma lsum_add : forall {A} (f g : A -> R) l, lsum (map (fun a => f a + g a) l) = lsum (map f l) + lsum (map g l).
Proof. intros A f g l. induction l as [|a l IH]; cbn; [unfold lsum; cbn; ring|]. unfold lsum in *. rewrite IH. ring. Qed.
Lemma lsum_ext : forall {A} (f g : A -> R) l, (forall a, In a l -> f a = g a) -> lsum (map f l) = lsum (map g l).
Proof. intros A f g l H. f_equal. apply map_ext_in, H. Qed.
Lemma lsum_zero : forall {A} (l : list A), lsum (map (fun _ => 0) l) = 0.
Proof. intros A l. induction l as [|a l IH]; [reflexivity|]. cbn. unfold lsum in *. rewrite IH. ring. Qed.
Lemma lsum_const : forall {A} c (l : list A), lsum (map (fun _ => c) l) = INR (length l) * c.
Proof.
  intros A c l. induction l as [|a l IH]; [cbn; ring|]. cbn [length map]. rewrite S_INR.
  change (lsum (c :: map (fun _ => c) l)) with (c + lsum (map (fun _ : A => c) l)). rewrite IH. ring.
Qed.
Lemma lsum_swap : forall {A B} (f : A -> B -> R) la lb,
  lsum (map (fun a => lsum (map (f a) lb)) la) = lsum (map (fun b => lsum (map (fun a => f a b) la)) lb).
Proof.
  intros A B f la lb. induction la as [|a la IH]; [cbn; rewrite lsum_zero; reflexivity|].
  cbn [map]. change (lsum (?x :: ?l)) with (x + lsum l). rewrite IH, <- lsum_add. apply lsum_ext. intros b _. reflexivity.
Qed.
Lemma lsum_nonneg : forall l, Forall (fun x => 0 <= x) l -> 0 <= lsum l.
Proof. intros l H. induction H as [|x l Hx H IH]; cbn; [unfold lsum; cbn; lra|]. unfold lsum in *. lra. Qed.
Lemma lsum_concat : forall ls, lsum (concat ls) = lsum (map lsum ls).
Proof. induction ls as [|l ls IH]; [reflexivity|]. cbn [concat map]. rewrite lsum_app, IH. reflexivity. Qed.
Lemma lsum_perm : forall l l', Permutation l l' -> lsum l = lsum l'.
Proof. intros l l' H. induction H; cbn; unfold lsum in *; cbn; lra. Qed.

(* ---------------- reduce_orbitals ---------------- *)
Fixpoint block_sums (counts : list nat) (l : list R) : list R :=
  match counts with [] => [] | c :: t => lsum (firstn c l) :: block_sums t (skipn c l) end.

Lemma row_block : forall k n l, row_sums k n l = block_sums (repeat n k) l.
Proof. induction k as [|k IH]; intros n l; [reflexivity|]. cbn. rewrite IH. reflexivity. Qed.

Lemma block_sums_app : forall a b l, block_sums (a ++ b) l = block_sums a l ++ block_sums b (skipn (sum_list a) l).
Proof.
  induction a as [|c a IH]; intros b l; [reflexivity|]. cbn [app block_sums]. rewrite IH, sum_list_cons. cbn [app]. f_equal. f_equal. f_equal.
  rewrite skipn_skipn_add. f_equal. lia.
Qed.

Lemma block_sums_firstn : forall a l n, (sum_list a <= n)%nat -> block_sums a (firstn n l) = block_sums a l.
Proof.
  induction a as [|c a IH]; intros l n H; [reflexivity|]. rewrite sum_list_cons in H. cbn [block_sums].
  rewrite firstn_firstn, Nat.min_l by lia. f_equal. rewrite skipn_firstn_comm. apply IH. lia.
Qed.

Lemma reshape_ok : forall n k l, (0 < n)%nat -> length l = (k * n)%nat -> reshape_sum n l = Ok (block_sums (repeat n k) l).
Proof.
  intros n k l Hn Hl. unfold reshape_sum. destruct (Nat.eqb_spec n 0); [lia|]. rewrite Hl, Nat.mod_mul by lia.
  rewrite Nat.eqb_refl, Nat.div_mul by lia. rewrite row_block. reflexivity.
Qed.

Lemma snd_labels_cons : forall e d, map snd (labels (e :: d)) = repeat (e_norb e) (e_num e) ++ map snd (labels d).
Proof. intros e d. rewrite labels_cons, map_app. f_equal. induction (e_num e); cbn; f_equal; auto. Qed.

Lemma reduce_gen : forall d data start acc, (forall e, In e d -> (0 < e_norb e)%nat) ->
  (start + hamiltonian_size d <= length data)%nat ->
  ofold (fun (st : nat * list R) (b : nat * nat) =>
         let stop := (fst st + fst b * snd b)%nat in
         obind (reshape_sum (snd b) (firstn (stop - fst st) (skipn (fst st) data))) (fun r => Ok (stop, snd st ++ r)))
       (combine (site_counts d) (orbital_counts d)) (start, acc)
  = Ok ((start + hamiltonian_size d)%nat, acc ++ block_sums (map snd (labels d)) (skipn start data)).
Proof.
  induction d as [|e d IH]; intros data start acc Hn Hl.
  - cbn. rewrite app_nil_r. f_equal. f_equal. unfold hamiltonian_size. cbn. lia.
  - rewrite hamiltonian_size_labels, snd_labels_cons, sum_list_app, sum_list_repeat in Hl |- *.
    cbn [site_counts orbital_counts map combine ofold fst snd].
    replace (start + e_num e * e_norb e - start)%nat with (e_num e * e_norb e)%nat by lia.
    rewrite (reshape_ok _ (e_num e)).
    2:{ apply Hn; left; auto. } 2:{ rewrite firstn_length, skipn_length. lia. }
    cbn [obind fst snd]. change (map e_num d) with (site_counts d). change (map e_norb d) with (orbital_counts d).
    rewrite IH; [|intros; apply Hn; right; auto|rewrite hamiltonian_size_labels; lia].
    rewrite hamiltonian_size_labels. f_equal. f_equal; [lia|]. rewrite <- app_assoc. f_equal.
    rewrite block_sums_app, sum_list_repeat, block_sums_firstn by (rewrite sum_list_repeat; lia).
    f_equal. rewrite skipn_skipn_add. f_equal. f_equal. lia.
Qed.

Lemma all_one : forall l, (forall x, In x l -> (0 < x)%nat) -> sum_list l = length l -> l = repeat 1%nat (length l).
Proof.
  intros l. assert (G : forall l, (forall x, In x l -> (0 < x)%nat) -> (length l <= sum_list l)%nat).
  { induction l0 as [|x l0 IH]; intros H; [cbn; lia|]. rewrite sum_list_cons. cbn [length].
    pose proof (H x (or_introl eq_refl)). assert (length l0 <= sum_list l0)%nat by (apply IH; intros; apply H; right; auto). lia. }
  induction l as [|x l IH]; intros H E; [reflexivity|]. rewrite sum_list_cons in E. cbn [length] in E.
  pose proof (H x (or_introl eq_refl)). assert (length l <= sum_list l)%nat by (apply G; intros; apply H; right; auto).
  cbn [length repeat]. f_equal; [lia|]. apply IH; [intros; apply H; right; auto|lia].
Qed.

Lemma block_ones : forall l, block_sums (repeat 1%nat (length l)) l = l.
Proof. induction l as [|x l IH]; [reflexivity|]. cbn. rewrite IH. f_equal. unfold lsum. cbn. ring. Qed.

Lemma labels_pos : forall d, (forall e, In e d -> (0 < e_norb e)%nat) -> forall x, In x (map snd (labels d)) -> (0 < x)%nat.
Proof.
  intros d H x Hx. apply in_map_iff in Hx. destruct Hx as (p & <- & Hp). unfold labels in Hp. apply in_flat_map in Hp.
  destruct Hp as (e & He & Hr). apply repeat_spec in Hr. subst p. apply H, He.
Qed.

Lemma reduce_ok : forall d data, (forall e, In e d -> (0 < e_norb e)%nat) -> length data = hamiltonian_size d ->
  reduce_orbitals d data = Ok (block_sums (map snd (labels d)) data).
Proof.
  intros d data Hn Hl. unfold reduce_orbitals. destruct (Nat.eqb_spec (length data) (rle_size d)) as [E|N].
  - f_equal. rewrite hamiltonian_size_labels in Hl. rewrite rle_size_labels in E.
    rewrite (all_one (map snd (labels d))); [|apply labels_pos, Hn|rewrite map_length; congruence].
    rewrite map_length. replace (length (labels d)) with (length data) by congruence. symmetry. apply block_ones.
  - destruct (Nat.eqb_spec (length data) (hamiltonian_size d)); [|congruence]. cbn [negb].
    rewrite reduce_gen; [reflexivity|exact Hn|lia].
Qed.

Lemma block_sums_length : forall c l, length (block_sums c l) = length c.
Proof. induction c as [|x c IH]; intros l; cbn; auto. Qed.

Lemma firstn_skipn_map : forall n s l, (s + n <= length l)%nat -> firstn n (skipn s l) = map (fun i => nth i l 0) (seq s n).
Proof.
  intros n s l H. apply (nth_ext _ _ 0 0).
  - rewrite firstn_length, skipn_length, map_length, seq_length. lia.
  - intros i Hi. rewrite firstn_length, skipn_length in Hi.
    rewrite (nth_indep (map _ _) 0 (nth O l 0)) by (rewrite map_length, seq_length; lia).
    rewrite (map_nth (fun i => nth i l 0) (seq s n) O), seq_nth by lia.
    assert (G : forall (l : list R) n i, (i < n)%nat -> nth i (firstn n l) 0 = nth i l 0).
    { clear. induction l as [|x l IH]; intros n i Hi; [rewrite firstn_nil; reflexivity|]. destruct n; [lia|]. destruct i; [reflexivity|]. cbn. apply IH. lia. }
    rewrite G by lia. clear. rewrite <- (firstn_skipn s l) at 2. destruct (le_lt_dec s (length l)) as [H|H].
    + rewrite app_nth2; rewrite firstn_length, Nat.min_l by lia; [|lia]. f_equal. lia.
    + rewrite (skipn_all2 l) by lia. rewrite app_nil_r, firstn_all2 by lia. rewrite (nth_overflow l) by lia. destruct i; reflexivity.
Qed.

Lemma block_sums_nth : forall c l i, (i < length c)%nat -> nth i (block_sums c l) 0 = lsum (firstn (nth i c O) (skipn (sum_list (firstn i c)) l)).
Proof.
  induction c as [|x c IH]; intros l i H; [cbn in H; lia|]. destruct i as [|i]; [reflexivity|]. cbn [length] in H. cbn [block_sums nth firstn].
  rewrite IH by lia. rewrite sum_list_cons, skipn_skipn_add. do 3 f_equal. lia.
Qed.

Lemma block_sums_total : forall c l, sum_list c = length l -> lsum (block_sums c l) = lsum l.
Proof.
  induction c as [|x c IH]; intros l H.
  - destruct l; [reflexivity|]. cbn in H. discriminate.
  - rewrite sum_list_cons in H. cbn [block_sums]. change (lsum (?a :: ?b)) with (a + lsum b).
    rewrite IH by (rewrite skipn_length; lia). rewrite <- lsum_app, firstn_skipn. reflexivity.
Qed.

(** The reduced data: the value of a site is the sum over its Hamiltonian indices. *)
Lemma with_data_ok : forall d data, (forall e, In e d -> (0 < e_norb e)%nat) -> length data = hamiltonian_size d ->
  exists out, with_data d data = Ok out /\ length out = rle_size d /\ lsum out = lsum data /\
    forall s, (s < rle_size d)%nat -> exists ix, to_hamiltonian_indices d s = Ok ix /\
      (forall r, In r ix -> (r < length data)%nat) /\ nth s out 0 = lsum (map (fun r => nth r data 0) ix).
Proof.
  intros d data Hn Hl. pose proof (reduce_ok d data Hn Hl) as E. exists (block_sums (map snd (labels d)) data).
  assert (L : length (block_sums (map snd (labels d)) data) = rle_size d) by (rewrite block_sums_length, map_length, rle_size_labels; reflexivity).
  split; [unfold with_data; rewrite E; cbn [obind]; rewrite L, Nat.eqb_refl; reflexivity|]. split; [exact L|]. split.
  { apply block_sums_total. rewrite <- hamiltonian_size_labels. auto. }
  intros s Hs. exists (seq (orb_offset d s) (orb_count d s)). split; [apply to_ham_spec, Hs|].
  assert (B : forall r, In r (seq (orb_offset d s) (orb_count d s)) -> (r < hamiltonian_size d)%nat).
  { intros r Hr. assert (I : In r (seq 0 (hamiltonian_size d))); [|apply in_seq in I; lia].
    rewrite <- ham_indices_partition. apply in_concat. eexists. split; [|exact Hr]. apply (in_map (fun i => seq (orb_offset d i) (orb_count d i))), in_seq. lia. }
  split; [intros; rewrite Hl; auto|].
  rewrite rle_size_labels in Hs. rewrite block_sums_nth by (rewrite map_length; exact Hs).
  rewrite firstn_map. change (sum_list (map snd (firstn s (labels d)))) with (orb_offset d s).
  replace (nth s (map snd (labels d)) O) with (orb_count d s) by (symmetry; apply (map_nth snd (labels d) (O, O) s)).
  rewrite firstn_skipn_map; [reflexivity|]. rewrite Hl.
  destruct (orb_count d s) as [|k] eqn:K.
  - rewrite Nat.add_0_r. unfold orb_offset. rewrite hamiltonian_size_labels. rewrite <- (firstn_skipn s (labels d)) at 2.
    rewrite map_app, sum_list_app. lia.
  - specialize (B (orb_offset d s + k)%nat). assert (I : In (orb_offset d s + k)%nat (seq (orb_offset d s) (S k))) by (apply in_seq; lia).
    apply B in I. lia.
Qed.

(* ---------------- broadened densities ---------------- *)
Lemma gaussian_same : forall b E En, b <> 0 -> gaussian_cpp b E En = gaussian b E En.
Proof. intros b E En H. unfold gaussian_cpp, gaussian. cbn zeta. f_equal. field. auto. Qed.

Lemma local_density_ext : forall vals psi g g' b r, (forall x, g x = g' x) -> local_density vals psi g b r = local_density vals psi g' b r.
Proof. intros vals psi g g' b r H. unfold local_density. f_equal. apply lsum_ext. intros n _. rewrite H. reflexivity. Qed.

Lemma lsum_seq : forall (l : list R) (f : R -> R), lsum (map (fun n => f (nth n l 0)) (seq 0 (length l))) = lsum (map f l).
Proof.
  intros l f. f_equal. apply (nth_ext _ _ (f 0) (f 0)); [rewrite !map_length, seq_length; reflexivity|].
  intros i Hi. rewrite map_length, seq_length in Hi. rewrite (map_nth f l 0 i).
  rewrite (nth_indep _ (f 0) (f (nth (length l) l 0))) by (rewrite map_length, seq_length; exact Hi).
  rewrite (map_nth (fun n => f (nth n l 0)) (seq 0 (length l)) (length l) i), seq_nth by exact Hi. reflexivity.
Qed.

Lemma total_density : forall vals psi rows g b, (forall n, (n < length vals)%nat -> lsum (map (fun r => abs2 (psi r n)) (seq 0 rows)) = 1) ->
  lsum (map (local_density vals psi g b) (seq 0 rows)) = gauss_scale b * lsum (map g vals).
Proof.
  intros vals psi rows g b H. unfold local_density. rewrite lsum_scal. f_equal. rewrite lsum_swap.
  rewrite <- (lsum_seq vals g). apply lsum_ext. intros n Hn. apply in_seq in Hn.
  rewrite lsum_scal_r, H by lia. ring.
Qed.

(* ---------------- maximal runs ---------------- *)
Fixpoint runs (l : list nat) : list (list nat) :=
  match l with
  | [] => []
  | x :: t => match runs t with
              | (y :: g) :: gs => if (y =? x + 1)%nat then (x :: y :: g) :: gs else [x] :: (y :: g) :: gs
              | gs => [x] :: gs
              end
  end.

Lemma runs_head : forall x t, exists g gs, runs (x :: t) = (x :: g) :: gs.
Proof. intros x t. cbn. destruct (runs t) as [|[|y g] gs]; [eauto|eauto|]. destruct (y =? x + 1)%nat; eauto. Qed.

Lemma runs_step : forall x y t, runs (x :: y :: t) =
  if (y =? x + 1)%nat then match runs (y :: t) with g :: gs => (x :: g) :: gs | [] => [] end else [x] :: runs (y :: t).
Proof.
  intros x y t. destruct (runs_head y t) as (g & gs & E).
  change (runs (x :: y :: t)) with (match runs (y :: t) with
              | (y :: g) :: gs => if (y =? x + 1)%nat then (x :: y :: g) :: gs else [x] :: (y :: g) :: gs
              | gs => [x] :: gs end).
  rewrite E. reflexivity.
Qed.

Lemma pieces_shift : forall ps x l s, pieces (x :: l) (S s) (map S ps) = pieces l s ps.
Proof. induction ps as [|p ps IH]; intros x l s; cbn [map pieces]; [reflexivity|]. rewrite IH. f_equal. Qed.

Lemma pieces_cons : forall ps x l, pieces (x :: l) 0 (map S ps) = match pieces l 0 ps with g :: gs => (x :: g) :: gs | [] => [] end.
Proof. intros [|p ps] x l; cbn [map pieces]; [reflexivity|]. rewrite pieces_shift. cbn. rewrite Nat.sub_0_r. reflexivity. Qed.

Lemma filter_map_S : forall (f : nat -> bool) l, filter f (map S l) = map S (filter (fun p => f (S p)) l).
Proof. intros f l. induction l as [|a l IH]; [reflexivity|]. cbn. destruct (f (S a)); cbn; rewrite IH; reflexivity. Qed.

Lemma breaks_step : forall x y t, breaks (x :: y :: t) = (if (y - x =? 1)%nat then [] else [1%nat]) ++ map S (breaks (y :: t)).
Proof.
  intros x y t. unfold breaks. cbn [length Nat.sub]. rewrite Nat.sub_0_r. cbn [seq filter nth Nat.sub].
  destruct (y - x =? 1)%nat; cbn [negb app]; [|f_equal]; rewrite <- (seq_shift (length t) 1), filter_map_S; f_equal; apply filter_ext_in;
  intros p Hp; apply in_seq in Hp; destruct p as [|p]; [lia| |lia|]; cbn [nth Nat.sub]; rewrite ?Nat.sub_0_r; reflexivity.
Qed.

Lemma pieces_runs : forall l, l <> [] -> StronglySorted lt l -> pieces l 0 (breaks l) = runs l.
Proof.
  induction l as [|x l IH]; intros N S; [congruence|]. destruct l as [|y t]; [reflexivity|].
  apply StronglySorted_inv in S. destruct S as (S & F). assert (L : (x < y)%nat) by (inversion F; auto).
  rewrite breaks_step, runs_step. specialize (IH ltac:(discriminate) S).
  destruct (Nat.eqb_spec (y - x) 1) as [E|E], (Nat.eqb_spec y (x + 1)) as [E'|E']; try lia.
  - cbn [app]. rewrite pieces_cons, IH. reflexivity.
  - cbn [app pieces]. rewrite pieces_shift, IH. reflexivity.
Qed.

Lemma runs_concat : forall l, concat (runs l) = l.
Proof.
  induction l as [|x l IH]; [reflexivity|]. destruct l as [|y t]; [reflexivity|]. rewrite runs_step.
  destruct (runs_head y t) as (g & gs & E). rewrite E in *. destruct (y =? x + 1)%nat; cbn [concat app] in *; congruence.
Qed.

Lemma sorted_nodup : forall l, StronglySorted lt l -> NoDup l.
Proof.
  intros l H. induction H as [|x l H IH F]; constructor; auto. intros I. rewrite Forall_forall in F. apply F in I. lia.
Qed.

Lemma runs_spec : forall l, StronglySorted lt l -> forall g, In g (runs l) ->
  exists a m, g = seq a (S m) /\ (a = O \/ ~ In (a - 1)%nat l) /\ ~ In (a + S m)%nat l.
Proof.
  induction l as [|x l IH]; intros HS g Hg; [destruct Hg|]. destruct l as [|y t].
  - cbn in Hg. destruct Hg as [<-|[]]. exists x, O. cbn. split; [reflexivity|]. split; [destruct x; [auto|right; lia]|lia].
  - apply StronglySorted_inv in HS. destruct HS as (HS & F). specialize (IH HS). rewrite runs_step in Hg.
    assert (L : forall z, In z (y :: t) -> (x < z)%nat) by (apply Forall_forall; exact F).
    assert (Y : forall z, In z (y :: t) -> (y <= z)%nat).
    { intros z [->|Hz]; [lia|]. apply StronglySorted_inv in HS. destruct HS as (_ & F'). rewrite Forall_forall in F'. apply F' in Hz. lia. }
    destruct (runs_head y t) as (g0 & gs & E).
    assert (Sub : forall h, In h (runs (y :: t)) -> forall z, In z h -> In z (y :: t)).
    { intros h Hh z Hz. rewrite <- (runs_concat (y :: t)). apply in_concat. eauto. }
    destruct (Nat.eqb_spec y (x + 1)) as [E'|E'].
    + rewrite E in Hg. destruct Hg as [<-|Hg].
      * destruct (IH (y :: g0)) as (a & m & E1 & _ & B); [rewrite E; left; auto|]. cbn [seq] in E1. injection E1 as <- Eg.
        exists x, (S m). split; [cbn [seq]; subst y; replace (x + 1)%nat with (S x) in * by lia; rewrite Eg; reflexivity|]. split.
        { destruct x; [auto|]. right. intros [H|H]; [lia|]. apply L in H. lia. }
        { replace (x + S (S m))%nat with (y + S m)%nat by lia. intros [H|H]; [lia|auto]. }
      * destruct (IH g) as (a & m & E1 & A & B); [rewrite E; right; auto|].
        assert (Ia : In a (y :: t)) by (apply (Sub g); [rewrite E; right; auto|subst g; left; auto]).
        exists a, m. split; [exact E1|]. split.
        { right. pose proof (L a Ia). intros [H1|H1]; [|destruct A; [lia|auto]]; [].
          assert (a = y) by (pose proof (Y a Ia); lia). subst a.
          assert (ND : NoDup (concat (runs (y :: t)))) by (rewrite runs_concat; apply sorted_nodup, HS).
          rewrite E in ND. cbn [concat app] in ND. inversion ND as [|? ? Q _]; subst. apply Q, in_or_app. right. apply in_concat.
          eexists. split; [exact Hg|left; auto]. }
        { intros [H|H]; [apply L in Ia; lia|auto]. }
    + destruct Hg as [<-|Hg].
      * exists x, O. split; [reflexivity|]. split.
        { destruct x; [auto|]. right. intros [H|H]; [lia|]. apply L in H. lia. }
        { intros [H|H]; [lia|]. pose proof (Y _ H). pose proof (L y (or_introl eq_refl)). lia. }
      * destruct (IH g Hg) as (a & m & E1 & A & B). assert (Ia : In a (y :: t)) by (apply (Sub g); [auto|subst g; left; auto]).
        exists a, m. split; [exact E1|]. split.
        { right. pose proof (Y a Ia). pose proof (L y (or_introl eq_refl)). intros [H1|H1]; [lia|]. destruct A; [lia|auto]. }
        { intros [H|H]; [apply L in Ia; lia|auto]. }
Qed.

Lemma runs_complete : forall l, StronglySorted lt l -> forall a m, (forall z, In z (seq a (S m)) -> In z l) ->
  (a = O \/ ~ In (a - 1)%nat l) -> ~ In (a + S m)%nat l -> In (seq a (S m)) (runs l).
Proof.
  intros l HS a m Sub A B. assert (Ia : In a (concat (runs l))) by (rewrite runs_concat; apply Sub; left; auto).
  apply in_concat in Ia. destruct Ia as (g & Hg & Ia). destruct (runs_spec l HS g Hg) as (a0 & m0 & E & A0 & B0).
  assert (Sub0 : forall z, In z g -> In z l) by (intros z Hz; rewrite <- (runs_concat l); apply in_concat; eauto).
  subst g. apply in_seq in Ia. assert (a = a0).
  { destruct (Nat.eq_dec a a0); auto. destruct A as [->|A]; [lia|]. exfalso. apply A, Sub0, in_seq. lia. }
  subst a0. assert (m = m0); [|subst; exact Hg]. destruct (Nat.lt_trichotomy m m0) as [H|[H|H]]; auto; exfalso.
  - apply B, Sub0, in_seq. lia.
  - apply B0, Sub, in_seq. lia.
Qed.

Definition ext (g : list nat) : list nat := g ++ [(last g O + 1)%nat].
Lemma last_seq : forall m a, last (seq a (S m)) O = (a + m)%nat.
Proof. intros m a. rewrite seq_S, last_last. reflexivity. Qed.
Lemma ext_seq : forall a m, ext (seq a (S m)) = seq a (S (S m)).
Proof. intros a m. unfold ext. rewrite last_seq, (seq_S (S m)). do 2 f_equal. lia. Qed.

Lemma runs_sorted : forall l, StronglySorted lt l -> StronglySorted lt (concat (map ext (runs l))) /\
  (forall z, In z (concat (map ext (runs l))) -> exists y, In y l /\ (y <= z)%nat).
Proof.
  intros l HS. split.
  2:{ intros z Hz. apply in_concat in Hz. destruct Hz as (h & Hh & Hz). apply in_map_iff in Hh. destruct Hh as (g & <- & Hg).
      destruct (runs_spec l HS g Hg) as (a & m & E & _). subst g. rewrite ext_seq in Hz. apply in_seq in Hz. exists a. split; [|lia].
      rewrite <- (runs_concat l). apply in_concat. eexists. split; [exact Hg|left; auto]. }
  induction l as [|x l IH]; [constructor|]. destruct l as [|y t].
  - cbn. repeat constructor; lia.
  - pose proof (StronglySorted_inv HS) as (HS' & F). rewrite Forall_forall in F. specialize (IH HS'). rewrite runs_step.
    assert (Y : forall z, In z (y :: t) -> (y <= z)%nat).
    { intros z [->|Hz]; [lia|]. apply StronglySorted_inv in HS'. destruct HS' as (_ & F'). rewrite Forall_forall in F'. apply F' in Hz. lia. }
    assert (W : forall z, In z (concat (map ext (runs (y :: t)))) -> (y <= z)%nat).
    { intros z Hz. apply in_concat in Hz. destruct Hz as (h & Hh & Hz). apply in_map_iff in Hh. destruct Hh as (g & <- & Hg).
      destruct (runs_spec _ HS' g Hg) as (a & m & E & _). subst g. rewrite ext_seq in Hz. apply in_seq in Hz.
      assert (In a (y :: t)) by (rewrite <- (runs_concat (y :: t)); apply in_concat; eexists; split; [exact Hg|left; auto]). apply Y in H. lia. }
    pose proof (F y (or_introl eq_refl)) as L.
    destruct (runs_head y t) as (g & gs & E). destruct (Nat.eqb_spec y (x + 1)) as [E'|E'].
    + rewrite E in *. cbn [map concat] in *. destruct (runs_spec _ HS' (y :: g)) as (a & m & E1 & _); [rewrite E; left; auto|].
      assert (X : ext (x :: y :: g) = x :: ext (y :: g)) by reflexivity. rewrite X. cbn [app]. constructor; [exact IH|].
      apply Forall_forall. intros z Hz. apply W in Hz. lia.
    + cbn [map concat ext last app]. constructor; [constructor; [exact IH|]|].
      * apply Forall_forall. intros z Hz. apply W in Hz. lia.
      * constructor; [lia|]. apply Forall_forall. intros z Hz. apply W in Hz. lia.
Qed.

Lemma filter_seq_sorted : forall f k s, StronglySorted lt (filter f (seq s k)).
Proof.
  induction k as [|k IH]; intros s; [constructor|]. cbn. destruct (f s); [|apply IH]. constructor; [apply IH|].
  apply Forall_forall. intros z Hz. apply filter_In in Hz. destruct Hz as (Hz & _). apply in_seq in Hz. lia.
Qed.

Lemma find_runs : forall vals tol, find_degenerate_states vals tol = map ext (runs (filter (close_above vals tol) (seq 0 (length vals - 1)))).
Proof.
  intros vals tol. unfold find_degenerate_states. cbn zeta. destruct (Nat.eqb_spec (length (filter (close_above vals tol) (seq 0 (length vals - 1)))) 0) as [E|E].
  - apply length_zero_iff_nil in E. rewrite E. reflexivity.
  - rewrite pieces_runs; [reflexivity| |apply filter_seq_sorted]. intros H. rewrite H in E. apply E. reflexivity.
Qed.

Lemma close_spec : forall vals tol i, In i (filter (close_above vals tol) (seq 0 (length vals - 1))) <->
  (i + 1 < length vals)%nat /\ Rabs (nth (i + 1) vals 0 - nth i vals 0) < tol.
Proof.
  intros vals tol i. rewrite filter_In, in_seq. unfold close_above. destruct (Rlt_dec _ tol).
  - split; [intros (H & _); split; [lia|auto]|intros (H & _); split; [lia|auto]].
  - split; [intros (_ & H); discriminate|intros (_ & H); contradiction].
Qed.
