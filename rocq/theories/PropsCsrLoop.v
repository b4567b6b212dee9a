(* C116: matrices in compressed sparse rows are built and visited element by element. *)
From Verif Require Import Base CsrLoop.
From Coq Require Import Lia Permutation Sorted.
Arguments Csr {A}. Arguments ptr {A}. Arguments ind {A}. Arguments dat {A}. Arguments for_each {A}. Arguments for_each_in_row {A}. Arguments buffered_for_each {A}. Arguments slice_for_each {A}.
Arguments max_nnz_per_row {A}. Arguments fill {A}. Arguments Visit {A}. Arguments Process {A}. Arguments scipy_row {A}. Arguments cell {A}. Arguments outer_size {A}. Arguments Ins {A}. Arguments BState {A}.
Arguments buffer_step {A}. Arguments slice_step {A}. Arguments b_n {A}. Arguments b_outer {A}. Arguments b_idx {A}. Arguments b_log {A}. Arguments shift {A}. Arguments insert {A}. Arguments start_row {A}.
Arguments start_row_at {A}. Arguments i_idx {A}. Arguments i_row {A}. Arguments i_ptr {A}. Arguments i_ind {A}. Arguments i_dat {A}. Arguments compress {A}. Arguments fill_row {A}. Arguments inserter_make {A}.

(** ** What is meant *)
(** The three arrays of a list of rows. *)
Fixpoint offsets {A} (s : nat) (rows : list (list A)) : list nat := match rows with [] => [s] | r :: rs => s :: offsets (s + length r) rs end.
Definition rep {A} (rows : list (list (nat * A))) (m : csr A) : Prop :=
  ptr m = offsets 0 rows /\ ind m = map fst (concat rows) /\ dat m = map snd (concat rows).
(** All elements with the number of their row. *)
Fixpoint listing {A} (o : nat) (rows : list (list (nat * A))) : list (nat * nat * A) :=
  match rows with [] => [] | r :: rs => map (fun e => (o, fst e, snd e)) r ++ listing (S o) rs end.
Fixpoint numbered {X} (n : nat) (l : list X) : list (X * nat) := match l with [] => [] | x :: r => (x, n) :: numbered (S n) r end.
(** The calls for one filled buffer. *)
Definition chunk_calls {A} (start : nat * nat) (ck : list (nat * nat * A)) : list (call A) :=
  map (fun x => Visit (fst (fst (fst x))) (snd (fst (fst x))) (snd (fst x)) (snd x)) (numbered 0 ck) ++ [Process (fst start) (snd start) (length ck)].

(** ** Cells with their place *)
Fixpoint row_cells {A} (o i : nat) (r : list (nat * A)) : list (nat * nat * (nat * A)) := match r with [] => [] | e :: r => (o, i, e) :: row_cells o (S i) r end.
Fixpoint all_cells {A} (o i : nat) (rows : list (list (nat * A))) : list (nat * nat * (nat * A)) :=
  match rows with [] => [] | r :: rs => row_cells o i r ++ all_cells (S o) (i + length r) rs end.
Lemma offsets_get : forall {A} (pre suf : list (list A)) s, aget (offsets s (pre ++ suf)) (length pre) = Ok (s + length (concat pre)).
Proof.
  intros A pre. induction pre as [|r pre IH]; intros suf s; cbn [app length offsets].
  - destruct suf; cbn; f_equal; lia.
  - cbn [offsets]. change (aget (s :: offsets (s + length r) (pre ++ suf)) (S (length pre))) with (aget (offsets (s + length r) (pre ++ suf)) (length pre)). rewrite IH. cbn [concat]. rewrite app_length. f_equal. lia.
Qed.
Lemma offsets_length : forall {A} (rows : list (list A)) s, length (offsets s rows) = S (length rows).
Proof. intros A rows. induction rows as [|r rows IH]; intros s; [reflexivity|]. cbn. rewrite IH. reflexivity. Qed.
Lemma offsets_at : forall {A} (rows pre suf : list (list A)), rows = pre ++ suf -> aget (offsets 0 rows) (length pre) = Ok (length (concat pre)).
Proof. intros A rows pre suf ->. exact (offsets_get pre suf 0). Qed.
Lemma rep_outer : forall {A} rows (m : csr A), rep rows m -> outer_size m = length rows.
Proof. intros A rows m (Hp & _). unfold outer_size. rewrite Hp, offsets_length. lia. Qed.
Lemma cell_at : forall {A} rows (m : csr A) P e Q, rep rows m -> concat rows = P ++ e :: Q -> cell m (length P) = Ok e.
Proof.
  intros A rows m P e Q (_ & Hi & Hd) E. unfold cell. rewrite Hi, Hd, E. unfold aget. rewrite !nth_error_map, nth_error_app2, Nat.sub_diag by lia. cbn. destruct e. reflexivity.
Qed.

Lemma row_cells_skip : forall {A} o (r : list (nat * A)) i k, skipn k (row_cells o i r) = row_cells o (i + k) (skipn k r).
Proof. intros A o r. induction r as [|e r IH]; intros i [|k]; cbn [skipn row_cells]; rewrite ?Nat.add_0_r; try reflexivity. rewrite IH. f_equal. lia. Qed.
Lemma row_cells_length : forall {A} o (r : list (nat * A)) i, length (row_cells o i r) = length r.
Proof. intros A o r. induction r as [|e r IH]; intros i; [reflexivity|]. cbn. rewrite IH. reflexivity. Qed.

Section Fold.
  Context {A S : Type}.
  Variable rows : list (list (nat * A)).
  Variable m : csr A.
  Hypothesis Hm : rep rows m.
  Variable step : nat -> S -> nat -> outcome S.
  Variable F : nat -> S -> nat -> nat * A -> outcome S.
  Hypothesis Hstep : forall o s i e, cell m i = Ok e -> step o s i = F o s i e.
  Definition on (s : S) (x : nat * nat * (nat * A)) : outcome S := F (fst (fst x)) s (snd (fst x)) (snd x).

  Lemma fold_row : forall o r P Q s, concat rows = P ++ r ++ Q -> ofold (step o) (seq (length P) (length r)) s = ofold on (row_cells o (length P) r) s.
  Proof.
    intros o r. induction r as [|e r IH]; intros P Q s E; [reflexivity|]. cbn [length seq row_cells ofold]. cbn [app] in E. rewrite (Hstep o s _ e) by (eapply cell_at; [exact Hm|exact E]).
    unfold on at 1. cbn [fst snd]. destruct (F o s (length P) e) as [s'| |]; try reflexivity. cbn [obind].
    specialize (IH (P ++ [e]) Q s'). rewrite app_length in IH. cbn [length] in IH. rewrite Nat.add_1_r in IH. apply IH. rewrite E, <- app_assoc. reflexivity.
  Qed.
  Lemma fold_all : forall suf pre s, rows = pre ++ suf ->
    ofold (fun s o => obind (aget (ptr m) o) (fun a => obind (aget (ptr m) (o + 1)) (fun b => ofold (step o) (seq a (b - a)) s))) (seq (length pre) (length suf)) s
    = ofold on (all_cells (length pre) (length (concat pre)) suf) s.
  Proof.
    destruct Hm as (Hp & _). induction suf as [|r suf IH]; intros pre s E; [reflexivity|]. cbn [length seq all_cells].
    assert (E' : rows = (pre ++ [r]) ++ suf) by (rewrite <- app_assoc; exact E).
    rewrite ofold_app. cbn [ofold]. rewrite Hp, (offsets_at rows pre (r :: suf) E). cbn [obind].
    pose proof (offsets_at rows (pre ++ [r]) suf E') as O. rewrite app_length in O. cbn [length] in O. rewrite O. cbn [obind].
    assert (Ec : concat (pre ++ [r]) = concat pre ++ r) by (rewrite concat_app; cbn; rewrite app_nil_r; reflexivity). rewrite Ec, app_length.
    replace (length (concat pre) + length r - length (concat pre)) with (length r) by lia.
    rewrite (fold_row (length pre) r (concat pre) (concat suf) s) by (rewrite E, concat_app; reflexivity).
    destruct (ofold on (row_cells (length pre) (length (concat pre)) r) s) as [s'| |]; try reflexivity. cbn [obind].
    specialize (IH (pre ++ [r]) s' E'). rewrite Ec, !app_length in IH. cbn [length] in IH. rewrite Nat.add_1_r in IH. rewrite <- Hp. exact IH.
  Qed.
  (** From the middle of a row. *)
  Variable stop : S -> bool.
  Hypothesis Hstop : forall o s i e, stop s = true -> F o s i e = Ok s.
  Lemma stop_cells : forall l s, stop s = true -> ofold on l s = Ok s.
  Proof. intros l. induction l as [|x l IH]; intros s H; [reflexivity|]. cbn [ofold]. unfold on at 1. rewrite Hstop by exact H. cbn [obind]. auto. Qed.
  Definition from_step (s : nat * S) (o : nat) : outcome (nat * S) :=
    if stop (snd s) then Ok s else obind (aget (ptr m) (o + 1)) (fun b => omap (pair (Nat.max (fst s) b)) (ofold (step o) (seq (fst s) (b - fst s)) (snd s))).
  Lemma stop_from : forall l s, stop (snd s) = true -> ofold from_step l s = Ok s.
  Proof. intros l. induction l as [|x l IH]; intros s H; [reflexivity|]. cbn [ofold]. unfold from_step at 1. rewrite H. cbn [obind]. auto. Qed.
  Lemma fold_from : forall suf pre i s, rows = pre ++ suf -> length (concat pre) <= i ->
    omap snd (ofold from_step (seq (length pre) (length suf)) (i, s))
    = ofold on (skipn (i - length (concat pre)) (all_cells (length pre) (length (concat pre)) suf)) s.
  Proof.
    destruct Hm as (Hp & _). induction suf as [|r suf IH]; intros pre i s E Hi; [rewrite skipn_nil; reflexivity|].
    destruct (stop s) eqn:Hst; [rewrite stop_from, stop_cells by exact Hst; reflexivity|]. cbn [length seq all_cells ofold]. unfold from_step at 1. cbn [fst snd]. rewrite Hst.
    assert (E' : rows = (pre ++ [r]) ++ suf) by (rewrite <- app_assoc; exact E).
    pose proof (offsets_at rows (pre ++ [r]) suf E') as O. rewrite app_length in O. cbn [length] in O. rewrite Hp, O. cbn [obind].
    assert (Ec : concat (pre ++ [r]) = concat pre ++ r) by (rewrite concat_app; cbn; rewrite app_nil_r; reflexivity). rewrite Ec, app_length.
    set (n0 := length (concat pre)) in *. set (k := i - n0).
    rewrite skipn_app, row_cells_skip, row_cells_length, ofold_app.
    assert (R : ofold (step (length pre)) (seq i (n0 + length r - i)) s = ofold on (row_cells (length pre) (n0 + k) (skipn k r)) s).
    { destruct (Nat.le_gt_cases k (length r)) as [L|L].
      - pose proof (fold_row (length pre) (skipn k r) (concat pre ++ firstn k r) (concat suf) s) as G. rewrite app_length, firstn_length, Nat.min_l, skipn_length in G by exact L. fold n0 in G.
        rewrite <- G; [f_equal; f_equal; unfold k; lia|]. rewrite E, concat_app. cbn [concat]. rewrite <- app_assoc. f_equal. rewrite app_assoc, firstn_skipn. reflexivity.
      - rewrite skipn_all2 by lia. replace (n0 + length r - i) with 0 by (unfold k in L; lia). reflexivity. }
    rewrite R. destruct (ofold on (row_cells (length pre) (n0 + k) (skipn k r)) s) as [s'| |]; try reflexivity. unfold omap at 2. cbn [obind].
    specialize (IH (pre ++ [r]) (Nat.max i (n0 + length r)) s' E'). rewrite Ec, !app_length in IH. cbn [length] in IH. fold n0 in IH. rewrite Nat.add_1_r in IH.
    etransitivity; [apply IH; lia|]. f_equal. f_equal. unfold k. lia.
  Qed.
End Fold.

(** ** for_each *)
Lemma ofold_pure : forall {X Y} (f : X -> Y -> X) l s, ofold (fun s x => Ok (f s x)) l s = Ok (fold_left f l s).
Proof. intros X Y f l. induction l as [|y l IH]; intros s; [reflexivity|]. cbn. apply IH. Qed.
Lemma fold_log : forall {X Y} (f : X -> Y) l log, fold_left (fun log x => log ++ [f x]) l log = log ++ map f l.
Proof. intros X Y f l. induction l as [|x l IH]; intros log; cbn; [rewrite app_nil_r; reflexivity|]. rewrite IH, <- app_assoc. reflexivity. Qed.
Definition plain {A} (x : nat * nat * (nat * A)) : nat * nat * A := (fst (fst x), fst (snd x), snd (snd x)).
Lemma cells_listing : forall {A} (rows : list (list (nat * A))) o i, map plain (all_cells o i rows) = listing o rows.
Proof.
  intros A rows. induction rows as [|r rows IH]; intros o i; [reflexivity|]. cbn [all_cells listing]. rewrite map_app, IH. f_equal. revert i. induction r as [|e r IHr]; intros i; [reflexivity|]. cbn. rewrite IHr. reflexivity.
Qed.
(** Every element is visited once, with its row, in the order of the rows. *)
Theorem C116_for_each : forall A rows (m : csr A), rep rows m -> for_each m = Ok (listing 0 rows).
Proof.
  intros A rows m Hm. unfold for_each. rewrite (rep_outer rows m Hm).
  rewrite (fold_all rows m Hm (fun o log i => omap (fun e => log ++ [(o, fst e, snd e)]) (cell m i)) (fun o log i e => Ok (log ++ [(o, fst e, snd e)]))) with (pre := []) (suf := rows); [|intros o s i e ->; reflexivity|reflexivity].
  cbn [length concat]. etransitivity; [exact (ofold_pure (fun log x => log ++ [plain x]) (all_cells 0 0 rows) [])|].
  rewrite (fold_log plain). cbn [app]. rewrite cells_listing. reflexivity.
Qed.
Print Assumptions C116_for_each.
Lemma pick_row : forall {A} (rows : list (list A)) o r, nth_error rows o = Some r -> exists pre suf, rows = pre ++ r :: suf /\ length pre = o.
Proof. intros A rows o r H. apply nth_error_split in H. destruct H as (pre & suf & E & L). exists pre, suf. auto. Qed.
Theorem C116_row : forall A rows (m : csr A) o r, rep rows m -> nth_error rows o = Some r -> for_each_in_row m o = Ok r.
Proof.
  intros A rows m o r Hm H. destruct (pick_row rows o r H) as (pre & suf & E & <-). unfold for_each_in_row. pose proof Hm as (Hp & _).
  assert (E' : rows = (pre ++ [r]) ++ suf) by (rewrite <- app_assoc; exact E). rewrite Hp, (offsets_at rows pre (r :: suf) E). cbn [obind].
  pose proof (offsets_at rows (pre ++ [r]) suf E') as O. rewrite app_length in O. cbn [length] in O. rewrite O. cbn [obind].
  assert (Ec : concat (pre ++ [r]) = concat pre ++ r) by (rewrite concat_app; cbn; rewrite app_nil_r; reflexivity). rewrite Ec, app_length.
  replace (length (concat pre) + length r - length (concat pre)) with (length r) by lia.
  rewrite (fold_row rows m Hm (fun _ log i => omap (fun e => log ++ [e]) (cell m i)) (fun _ log i e => Ok (log ++ [e]))) with (o := 0) (Q := concat suf); [|intros o' s i e ->; reflexivity|rewrite E, concat_app; reflexivity].
  etransitivity; [exact (ofold_pure (fun log x => log ++ [snd x]) (row_cells 0 (length (concat pre)) r) [])|]. rewrite (fold_log snd). cbn [app]. f_equal. generalize (length (concat pre)) as i. clear. induction r as [|e r IH]; intros i; [reflexivity|]. cbn. rewrite IH. reflexivity.
Qed.
Print Assumptions C116_row.

(** ** Buffers *)
Definition bpure {A} (size : nat) (s : bstate A) (x : nat * nat * (nat * A)) : bstate A :=
  let s := if b_n s =? size then BState 0 (fst (fst x)) (snd (fst x)) (b_log s ++ [Process (b_outer s) (b_idx s) size]) else s in
  BState (S (b_n s)) (b_outer s) (b_idx s) (b_log s ++ [Visit (fst (fst x)) (fst (snd x)) (snd (snd x)) (b_n s)]).
Lemma numbered_app : forall {X} (l l' : list X) n, numbered n (l ++ l') = numbered n l ++ numbered (n + length l) l'.
Proof. intros X l. induction l as [|x l IH]; intros l' n; cbn; [rewrite Nat.add_0_r; reflexivity|]. rewrite IH. do 3 f_equal. lia. Qed.
Definition visits {A} (ck : list (nat * nat * A)) : list (call A) := map (fun x => Visit (fst (fst (fst x))) (snd (fst (fst x))) (snd (fst x)) (snd x)) (numbered 0 ck).
Definition calls_of {A} (p : nat * nat * list (nat * nat * (nat * A))) : list (call A) := chunk_calls (fst p) (map plain (snd p)).
Lemma visits_snoc : forall {A} (ck : list (nat * nat * A)) x, visits (ck ++ [x]) = visits ck ++ [Visit (fst (fst x)) (snd (fst x)) (snd x) (length ck)].
Proof. intros A ck x. unfold visits. rewrite numbered_app, map_app. reflexivity. Qed.
Definition started {A} (p : nat * nat * list (nat * nat * (nat * A))) : Prop := exists x r, snd p = x :: r /\ fst p = fst x.
Definition starts_ok {A} (ps : list (nat * nat * list (nat * nat * (nat * A)))) : Prop := match ps with [] => True | p :: ps => fst p = (0, 0) /\ Forall started ps end.
Lemma starts_snoc : forall {A} (ps : list (nat * nat * list (nat * nat * (nat * A)))) q p, starts_ok (ps ++ [q]) -> started p -> starts_ok ((ps ++ [q]) ++ [p]).
Proof.
  intros A ps q p H S. destruct ps as [|p0 ps]; cbn in *; destruct H as [H H']; split; auto. rewrite Forall_app. split; auto.
Qed.
Lemma starts_grow : forall {A} (ps : list (nat * nat * list (nat * nat * (nat * A)))) st cur x, starts_ok (ps ++ [(st, cur)]) -> starts_ok (ps ++ [(st, cur ++ [x])]).
Proof.
  intros A ps st cur x H. destruct ps as [|p0 ps]; cbn in *; destruct H as [H H']; split; auto. rewrite Forall_app in *. destruct H' as [H1 H2]. split; auto.
  constructor; auto. inversion H2 as [|? ? (y & r & E1 & E2) _]; subst. cbn in *. subst. exists y, (r ++ [x]). auto.
Qed.
Lemma bfold : forall {A} size (l : list (nat * nat * (nat * A))), 0 < size ->
  exists full st cur, l = concat (map snd full) ++ cur /\ (forall p, In p full -> length (snd p) = size) /\ length cur <= size /\ starts_ok (full ++ [(st, cur)]) /\
    fold_left (bpure size) l (BState 0 0 0 []) = BState (length cur) (fst st) (snd st) (concat (map calls_of full) ++ visits (map plain cur)).
Proof.
  intros A size l Hs. induction l as [|x l IH] using rev_ind.
  - exists [], (0, 0), []. split; [reflexivity|]. split; [intros p []|]. split; [cbn; lia|]. split; [cbn; auto|reflexivity].
  - destruct IH as (full & st & cur & E & Hf & Hc & Hst & R). rewrite fold_left_app, R. cbn [fold_left]. unfold bpure at 1. cbn [b_n b_outer b_idx b_log]. destruct (Nat.eqb_spec (length cur) size) as [Q|Q].
    + exists (full ++ [(st, cur)]), (fst x), [x]. split; [|split; [|split; [|split]]].
      * rewrite map_app, concat_app. cbn. rewrite app_nil_r, E. reflexivity.
      * intros p H. apply in_app_or in H. destruct H as [H|[<-|[]]]; auto.
      * cbn. lia.
      * apply starts_snoc; auto. exists x, []. auto.
      * cbn [b_n b_outer b_idx b_log length]. f_equal. rewrite map_app, concat_app. cbn [map concat]. rewrite app_nil_r. unfold calls_of at 3, chunk_calls. cbn [fst snd]. fold (visits (map plain cur)). rewrite map_length, Q, <- !app_assoc. reflexivity.
    + exists full, st, (cur ++ [x]). split; [|split; [|split; [|split]]].
      * rewrite E, app_assoc. reflexivity.
      * exact Hf.
      * rewrite app_length. cbn. lia.
      * apply starts_grow. exact Hst.
      * cbn [b_n b_outer b_idx b_log]. rewrite app_length. cbn [length]. rewrite Nat.add_1_r. rewrite map_app. cbn [map]. rewrite visits_snoc, map_length, <- app_assoc. reflexivity.
Qed.

(** Slices *)
Definition spure {A} (size : nat) (s : sstate A) (x : nat * nat * (nat * A)) : sstate A :=
  match fst s with None => s | Some n => if n =? size then (None, snd s) else (Some (S n), snd s ++ [(plain x, n)]) end.
Lemma spure_run : forall {A} (ck after : list (nat * nat * (nat * A))) n log, snd (fold_left (spure (n + length ck)) (ck ++ after) (Some n, log)) = log ++ numbered n (map plain ck).
Proof.
  intros A ck. induction ck as [|x ck IH]; intros after n log.
  - cbn [app length map numbered]. rewrite Nat.add_0_r, app_nil_r. destruct after as [|y after]; [reflexivity|]. cbn [fold_left]. unfold spure at 2. cbn [fst snd]. rewrite Nat.eqb_refl.
    induction after as [|z after IH]; [reflexivity|]. cbn [fold_left]. unfold spure at 2. exact IH.
  - cbn [app length fold_left map numbered]. unfold spure at 2. cbn [fst snd]. destruct (Nat.eqb_spec n (n + S (length ck))) as [Q|_]; [lia|].
    replace (n + S (length ck)) with (S n + length ck) by lia. rewrite IH, <- app_assoc. reflexivity.
Qed.
Lemma locate_row : forall {A} o (r : list (nat * A)) i k x, nth_error (row_cells o i r) k = Some x -> fst x = (o, i + k).
Proof. intros A o r. induction r as [|e r IH]; intros i [|k] x H; cbn in H; try discriminate; [injection H as <-; rewrite Nat.add_0_r; reflexivity|]. apply IH in H. rewrite H. f_equal. lia. Qed.
Lemma locate : forall {A} (rows : list (list (nat * A))) o0 i0 B x rest, all_cells o0 i0 rows = B ++ x :: rest ->
  exists pre suf, rows = pre ++ suf /\ fst x = (o0 + length pre, i0 + length B) /\ length (concat pre) <= length B /\
    skipn (length B - length (concat pre)) (all_cells (o0 + length pre) (i0 + length (concat pre)) suf) = x :: rest.
Proof.
  intros A rows. induction rows as [|r rows IH]; intros o0 i0 B x rest E; [destruct B; discriminate|]. cbn [all_cells] in E. destruct (Nat.lt_ge_cases (length B) (length r)) as [L|L].
  - exists [], (r :: rows). cbn [app length concat]. rewrite Nat.sub_0_r, !Nat.add_0_r. split; [reflexivity|]. split; [|split; [lia|]].
    + apply (locate_row o0 r i0 (length B) x). rewrite <- (nth_error_app1 _ (all_cells (S o0) (i0 + length r) rows)) by (rewrite row_cells_length; exact L). rewrite E, nth_error_app2, Nat.sub_diag by lia. reflexivity.
    + cbn [all_cells]. rewrite E, skipn_app, skipn_all, Nat.sub_diag. reflexivity.
  - assert (S : exists B', B = row_cells o0 i0 r ++ B' /\ all_cells (S o0) (i0 + length r) rows = B' ++ x :: rest).
    { exists (skipn (length r) B). pose proof (f_equal (skipn (length r)) E) as H1. pose proof (f_equal (firstn (length r)) E) as H2. rewrite skipn_app, firstn_app, row_cells_length, Nat.sub_diag in *.
      rewrite skipn_app in H1. rewrite firstn_app in H2. rewrite <- (row_cells_length o0 r i0) in H1 at 1. rewrite <- (row_cells_length o0 r i0) in H2 at 1. rewrite skipn_all in H1. rewrite firstn_all in H2.
      replace (length r - length B) with 0 in * by lia. cbn [firstn skipn app] in *. rewrite !app_nil_r in H2. split; [|exact H1]. rewrite H2, firstn_skipn. reflexivity. }
    destruct S as (B' & -> & E'). destruct (IH _ _ _ _ _ E') as (pre & suf & -> & H1 & H2 & H3). exists (r :: pre), suf. cbn [app length concat]. rewrite !app_length, row_cells_length. split; [reflexivity|]. split; [|split; [lia|]].
    + rewrite H1. f_equal; lia.
    + rewrite <- H3. f_equal; [lia|]. f_equal; lia.
Qed.
Lemma slice_at : forall {A} rows (m : csr A) pre suf i size, rep rows m -> rows = pre ++ suf -> length (concat pre) <= i ->
  slice_for_each m (length pre) i size = Ok (snd (fold_left (spure size) (skipn (i - length (concat pre)) (all_cells (length pre) (length (concat pre)) suf)) (Some 0, []))).
Proof.
  intros A rows m pre suf i size Hm E Hi. unfold slice_for_each. rewrite (rep_outer rows m Hm). replace (length rows - length pre) with (length suf) by (rewrite E, app_length; lia).
  pose (F := fun o (s : sstate A) (i : nat) (e : nat * A) => Ok (spure size s (o, i, e))). pose (stop := fun s : sstate A => match fst s with None => true | Some _ => false end).
  assert (H : omap snd (ofold (from_step m (slice_step m size) stop) (seq (length pre) (length suf)) (i, (Some 0, []))) = ofold (on F) (skipn (i - length (concat pre)) (all_cells (length pre) (length (concat pre)) suf)) (Some 0, [])).
  { apply (fold_from rows m Hm (slice_step m size) F).
    - intros o s j e Hc. unfold slice_step, F, spure. destruct s as [[n|] log]; cbn [fst snd]; [|reflexivity]. destruct (n =? size); [reflexivity|]. rewrite Hc. reflexivity.
    - intros o s j e Hs. unfold F, spure. unfold stop in Hs. destruct (fst s); [discriminate|]. reflexivity.
    - exact E.
    - exact Hi. }
  assert (P : forall l s, ofold (on F) l s = Ok (fold_left (spure size) l s)).
  { intros l. induction l as [|x l IH]; intros s; [reflexivity|]. cbn [ofold fold_left]. unfold on at 1, F at 1. cbn [obind]. rewrite IH. destruct x as [[o j] e]. reflexivity. }
  rewrite P in H.
  assert (Q : forall l s, ofold (from_step m (slice_step m size) stop) l s = ofold (fun s o => match fst (snd s) with None => Ok s | Some _ => obind (aget (ptr m) (o + 1)) (fun b => omap (pair (Nat.max (fst s) b)) (ofold (slice_step m size o) (seq (fst s) (b - fst s)) (snd s))) end) l s).
  { intros l s. apply ofold_ext_in. intros a b _. unfold from_step, stop. destruct a as [? [[?|] ?]]; reflexivity. }
  rewrite Q in H. destruct (ofold _ _ _) as [s'| |]; cbn in H |- *; try discriminate. injection H as <-. reflexivity.
Qed.
(** The elements are handed out in buffers.  All but the last are full; the last is not empty unless the matrix is.
    After each buffer its place is reported, and looping over the slice at that place gives the same elements at the same positions. *)
Theorem C116_buffered : forall A rows (m : csr A) size, rep rows m -> 0 < size ->
  exists ps : list (nat * nat * list (nat * nat * A)),
    buffered_for_each m size = Ok (concat (map (fun p => chunk_calls (fst p) (snd p)) ps)) /\ concat (map snd ps) = listing 0 rows /\
    (forall k p, nth_error ps k = Some p -> length (snd p) <= size /\ (S k < length ps -> length (snd p) = size) /\ (listing 0 rows <> [] -> snd p <> [])) /\
    (forall p, In p ps -> slice_for_each m (fst (fst p)) (snd (fst p)) (length (snd p)) = Ok (numbered 0 (snd p))).
Proof.
  intros A rows m size Hm Hs. set (cs := all_cells 0 0 rows). destruct (bfold size cs Hs) as (full & st & cur & E & Hf & Hc & Hst & R).
  pose (flat := fun p : nat * nat * list (nat * nat * (nat * A)) => (fst p, map plain (snd p))). exists (map flat (full ++ [(st, cur)])).
  assert (Ec : cs = concat (map snd (full ++ [(st, cur)]))) by (rewrite map_app, concat_app; cbn; rewrite app_nil_r; exact E).
  split; [|split; [|split]].
  - unfold buffered_for_each. rewrite (rep_outer rows m Hm). pose proof Hm as (Hp & _). pose proof (offsets_at rows [] rows eq_refl) as O. rewrite <- Hp in O. cbn [length concat] in O. rewrite O. cbn [obind].
    rewrite (fold_all rows m Hm (buffer_step m size) (fun o s i e => Ok (bpure size s (o, i, e)))) with (pre := []) (suf := rows); [| |reflexivity].
    2:{ intros o s i e He. unfold buffer_step. rewrite He. reflexivity. }
    cbn [length concat]. fold cs. erewrite ofold_ext_in.
    2:{ intros a b _. unfold on. replace (fst (fst b), snd (fst b), snd b) with b by (destruct b as [[? ?] ?]; reflexivity). reflexivity. }
    rewrite (ofold_pure (bpure size)), R. unfold omap. cbn [obind b_n b_outer b_idx b_log]. f_equal. rewrite map_map. unfold flat. cbn [fst snd]. rewrite map_app, concat_app. fold (@calls_of A). cbn [map concat]. rewrite app_nil_r.
    unfold calls_of, chunk_calls at 3. cbn [fst snd]. fold (visits (map plain cur)). rewrite map_length, <- app_assoc. reflexivity.
  - rewrite map_map. unfold flat. cbn [snd]. rewrite <- (cells_listing rows 0 0). fold cs. rewrite Ec, concat_map, map_map. reflexivity.
  - intros k p Hk. rewrite nth_error_map in Hk. destruct (nth_error (full ++ [(st, cur)]) k) as [q|] eqn:Hq; [|discriminate]. injection Hk as <-. unfold flat. cbn [snd]. rewrite !map_length.
    assert (Hlen : length (snd q) <= size /\ (S k < length (full ++ [(st, cur)]) -> length (snd q) = size)).
    { rewrite app_length. cbn [length]. destruct (Nat.lt_ge_cases k (length full)) as [L|L].
      - rewrite nth_error_app1 in Hq by exact L. apply nth_error_In in Hq. rewrite (Hf q Hq). lia.
      - rewrite nth_error_app2 in Hq by exact L. destruct (k - length full) as [|j] eqn:D; [|destruct j; discriminate]. injection Hq as <-. cbn [snd]. split; [exact Hc|lia]. }
    destruct Hlen as [L1 L2]. split; [exact L1|]. split; [exact L2|]. intros Hne Hq0. apply map_eq_nil in Hq0. destruct k as [|k].
    + destruct full as [|q0 full]; cbn in Hq; injection Hq as <-.
      * cbn in Ec, Hq0. subst cur. cbn in Ec. apply Hne. rewrite <- (cells_listing rows 0 0). fold cs. rewrite Ec. reflexivity.
      * pose proof (Hf q0 (or_introl eq_refl)) as Z. rewrite Hq0 in Z. cbn in Z. lia.
    + destruct (full ++ [(st, cur)]) as [|q0 ps]; [discriminate|]. cbn in Hst, Hq. destruct Hst as [_ Hst]. rewrite Forall_forall in Hst. destruct (Hst q (nth_error_In _ _ Hq)) as (x & r & Z & _). congruence.
  - intros p Hp. apply in_map_iff in Hp. destruct Hp as (q & <- & Hq). unfold flat. cbn [fst snd]. apply in_split in Hq. destruct Hq as (L & R' & Eq). rewrite Eq in *. rewrite map_length.
    rewrite map_app, concat_app in Ec. cbn [map concat] in Ec. destruct L as [|q0 L].
    + cbn in Hst. destruct Hst as [-> _]. cbn [fst snd]. rewrite (slice_at rows m [] rows 0 _ Hm eq_refl) by (cbn; lia). cbn [length concat Nat.sub skipn]. fold cs. rewrite Ec. cbn [map concat app].
      f_equal. apply (spure_run (snd q) _ 0 []).
    + cbn [app starts_ok] in Hst. destruct Hst as [_ Hst]. rewrite Forall_forall in Hst. destruct (Hst q) as (x & r & Z1 & Z2); [apply in_or_app; right; left; reflexivity|].
      pose proof Ec as Ec'. rewrite Z1 in Ec'. cbn [app] in Ec'. destruct (locate rows 0 0 _ _ _ Ec') as (pre & suf & E1 & E2 & E3 & E4). rewrite Z2, E2. cbn [fst snd Nat.add].
      rewrite (slice_at rows m pre suf _ _ Hm E1) by exact E3. cbn [Nat.add] in E4. rewrite E4. f_equal. change (x :: r ++ concat (map snd R')) with ((x :: r) ++ concat (map snd R')). rewrite <- Z1. apply (spure_run (snd q) _ 0 []).
Qed.
Print Assumptions C116_buffered.

(** The largest number of elements of a row, zero without rows. *)
Theorem C116_max : forall A rows (m : csr A), rep rows m -> max_nnz_per_row m = Ok (list_max (map (@length _) rows)).
Proof.
  intros A rows m Hm. unfold max_nnz_per_row. rewrite (rep_outer rows m Hm). destruct Hm as (Hp & _). rewrite Hp.
  assert (G : forall suf pre k, rows = pre ++ suf ->
    ofold (fun max o => obind (aget (offsets 0 rows) o) (fun a => obind (aget (offsets 0 rows) (o + 1)) (fun b => Ok (if max <? b - a then b - a else max)))) (seq (length pre) (length suf)) k
    = Ok (Nat.max k (list_max (map (@length _) suf)))).
  { intros suf. induction suf as [|r suf IH]; intros pre k E; [cbn; f_equal; lia|]. cbn [length seq ofold].
    assert (E' : rows = (pre ++ [r]) ++ suf) by (rewrite <- app_assoc; exact E). rewrite (offsets_at rows pre (r :: suf) E). cbn [obind].
    pose proof (offsets_at rows (pre ++ [r]) suf E') as O. rewrite app_length in O. cbn [length] in O. rewrite O. cbn [obind].
    rewrite concat_app, app_length. cbn [concat]. rewrite app_nil_r. replace (length (concat pre) + length r - length (concat pre)) with (length r) by lia.
    specialize (IH (pre ++ [r]) (if k <? length r then length r else k) E'). rewrite app_length in IH. cbn [length] in IH. rewrite Nat.add_1_r in IH. rewrite IH. f_equal.
    change (list_max (map (@length _) (r :: suf))) with (Nat.max (length r) (list_max (map (@length _) suf))). destruct (Nat.ltb_spec k (length r)); lia. }
  exact (G rows [] 0 eq_refl).
Qed.
Print Assumptions C116_max.
(** The arrays given to Python are the rows of the matrix there. *)
Theorem C116_scipy : forall A rows (m : csr A) o r, rep rows m -> nth_error rows o = Some r -> scipy_row m (length (concat rows)) o = Ok r.
Proof.
  intros A rows m o r Hm H. destruct (pick_row rows o r H) as (pre & suf & E & <-). unfold scipy_row. rewrite (rep_outer rows m Hm). destruct Hm as (Hp & Hi & Hd). rewrite Hp, Hi, Hd.
  rewrite !firstn_all2 by (rewrite ?offsets_length, ?map_length; lia).
  assert (E' : rows = (pre ++ [r]) ++ suf) by (rewrite <- app_assoc; exact E). rewrite (offsets_at rows pre (r :: suf) E). cbn [obind].
  pose proof (offsets_at rows (pre ++ [r]) suf E') as O. rewrite app_length in O. cbn [length] in O. rewrite O. cbn [obind]. f_equal.
  assert (C : forall l : list (nat * A), combine (map fst l) (map snd l) = l) by (intros l; induction l as [|[? ?] l IH]; cbn; [|rewrite IH]; reflexivity). rewrite C.
  rewrite !concat_app, app_length. cbn [concat]. rewrite app_nil_r. replace (length (concat pre) + length r - length (concat pre)) with (length r) by lia.
  rewrite E at 1. rewrite concat_app, skipn_app, skipn_all, Nat.sub_diag. cbn [app skipn concat]. rewrite firstn_app, firstn_all, Nat.sub_diag. cbn. apply app_nil_r.
Qed.
Print Assumptions C116_scipy.

(** ** Filling *)
(** The second list is the first one sorted by column, elements of a column in their order. *)
Definition sorts {A} (r s : list (nat * A)) : Prop :=
  Permutation r s /\ StronglySorted (fun a b => fst a <= fst b) s /\ forall c, filter (fun e => fst e =? c) s = filter (fun e => fst e =? c) r.

Definition ks {A} (l : list (nat * A)) : list (option nat) := map (fun e => Some (fst e)) l.
Definition vs {A} (l : list (nat * A)) : list (option A) := map (fun e => Some (snd e)) l.
Lemma aset_mid : forall {T} (P : list T) x Q v n, n = length P -> aset (P ++ x :: Q) n v = Ok (P ++ v :: Q).
Proof.
  intros T P x Q v n ->. unfold aset. rewrite app_length. cbn [length]. destruct (Nat.ltb_spec (length P) (length P + S (length Q))); [|lia]. f_equal. clear. induction P as [|p P IH]; [reflexivity|]. cbn. rewrite IH. reflexivity.
Qed.
Lemma aset_end : forall {T} (P : list T) v n, n = length P -> aset P n v = UB.
Proof. intros T P v n ->. unfold aset. rewrite Nat.ltb_irrefl. reflexivity. Qed.
Lemma aget_mid : forall {T} (P : list T) x Q n, n = length P -> aget (P ++ x :: Q) n = Ok x.
Proof. intros T P x Q n ->. unfold aget. rewrite nth_error_app2, Nat.sub_diag by lia. reflexivity. Qed.
Lemma ks_length : forall {A} (l : list (nat * A)), length (ks l) = length l. Proof. intros; apply map_length. Qed.
Lemma vs_length : forall {A} (l : list (nat * A)), length (vs l) = length l. Proof. intros; apply map_length. Qed.

Lemma shift_stop : forall {A} (pre lo : list (nat * A)) col ti td, Forall (fun e => fst e <= col) lo ->
  shift (length pre) col (length (pre ++ lo)) (ks (pre ++ lo) ++ ti) (vs (pre ++ lo) ++ td) = Ok (length (pre ++ lo), ks (pre ++ lo) ++ ti, vs (pre ++ lo) ++ td).
Proof.
  intros A pre lo col ti td H. destruct lo as [|l lo _] using rev_ind.
  - rewrite app_nil_r. generalize (ks pre ++ ti) (vs pre ++ td). intros a b. destruct (length pre) as [|k] eqn:E; [reflexivity|]. cbn [shift]. rewrite Nat.ltb_irrefl. reflexivity.
  - apply Forall_app in H. destruct H as [_ H]. inversion H as [|? ? Hl _]; subst. rewrite app_assoc. set (P := pre ++ lo). rewrite app_length. cbn [length]. rewrite Nat.add_1_r. cbn [shift].
    destruct (Nat.ltb_spec (length pre) (S (length P))) as [_|L]; [|unfold P in L; rewrite app_length in L; lia].
    unfold ks at 1. rewrite map_app, <- app_assoc. cbn [map app]. rewrite aget_mid by (rewrite map_length; reflexivity). cbn [written obind]. destruct (Nat.ltb_spec col (fst l)); [lia|]. reflexivity.
Qed.
Lemma shift_ok : forall {A} (hi pre lo : list (nat * A)) col x ti y td, Forall (fun e => fst e <= col) lo -> Forall (fun e => col < fst e) hi ->
  exists x' y', shift (length pre) col (length (pre ++ lo ++ hi)) (ks (pre ++ lo ++ hi) ++ x :: ti) (vs (pre ++ lo ++ hi) ++ y :: td)
    = Ok (length (pre ++ lo), ks (pre ++ lo) ++ x' :: ks hi ++ ti, vs (pre ++ lo) ++ y' :: vs hi ++ td).
Proof.
  intros A hi. induction hi as [|h hi IH] using rev_ind; intros pre lo col x ti y td Hl Hh.
  - exists x, y. rewrite !app_nil_r. apply shift_stop. exact Hl.
  - apply Forall_app in Hh. destruct Hh as [Hh Hc]. inversion Hc as [|? ? Hch _]; subst.
    destruct (IH pre lo col (Some (fst h)) (Some (fst h) :: ti) (Some (snd h)) (Some (snd h) :: td) Hl Hh) as (x' & y' & E). exists x', y'.
    rewrite !app_assoc in *. rewrite <- (app_assoc pre lo hi) in *. set (P := pre ++ lo ++ hi) in *. rewrite (app_length P). cbn [length]. rewrite Nat.add_1_r. cbn [shift].
    destruct (Nat.ltb_spec (length pre) (S (length P))) as [_|L]; [|unfold P in L; rewrite app_length in L; lia].
    assert (Ek : forall T, ks (P ++ [h]) ++ T = ks P ++ Some (fst h) :: T) by (intros T; unfold ks; rewrite map_app, <- app_assoc; reflexivity).
    assert (Ev : forall T, vs (P ++ [h]) ++ T = vs P ++ Some (snd h) :: T) by (intros T; unfold vs; rewrite map_app, <- app_assoc; reflexivity).
    rewrite Ek at 1. rewrite aget_mid by (rewrite ks_length; reflexivity). cbn [written obind]. destruct (Nat.ltb_spec col (fst h)); [|lia].
    rewrite aset_mid by (rewrite ks_length, app_length; cbn; lia). cbn [obind]. rewrite Ev at 1. rewrite aget_mid by (rewrite vs_length; reflexivity). cbn [written obind].
    rewrite aset_mid by (rewrite vs_length, app_length; cbn; lia). cbn [obind]. rewrite Ek, Ev. rewrite E. unfold ks, vs. rewrite !map_app, <- !app_assoc. reflexivity.
Qed.
Lemma shift_full : forall {A} start col k (ix : list (option nat)) (da : list (option A)), length ix = S k ->
  shift start col (S k) ix da = UB \/ shift start col (S k) ix da = Ok (S k, ix, da).
Proof.
  intros A start col k ix da H. cbn [shift]. destruct (start <? S k); auto. destruct (written (aget ix k)) as [c| |] eqn:W; cbn [obind]; auto.
  - destruct (col <? c); auto. rewrite aset_end by (symmetry; exact H). auto.
  - unfold written, aget in W. destruct (nth_error ix k) as [[?|]|]; discriminate.
Qed.

(** What an unfinished matrix holds. *)
Definition holds {A} (size : nat) (L : list (nat * A)) (s : inserter A) : Prop :=
  i_idx s = length L /\ exists ti td, i_ind s = ks L ++ ti /\ i_dat s = vs L ++ td /\ length L + length ti = size /\ length td = length ti.
Lemma sorted_split : forall {A} (cur : list (nat * A)) col, StronglySorted (fun a b => fst a <= fst b) cur ->
  exists lo hi, cur = lo ++ hi /\ Forall (fun e => fst e <= col) lo /\ Forall (fun e => col < fst e) hi.
Proof.
  intros A cur col H. induction H as [|a l Hl IH Ha]; [exists [], []; auto|]. destruct (Nat.le_gt_cases (fst a) col) as [L|L].
  - destruct IH as (lo & hi & -> & H1 & H2). exists (a :: lo), hi. auto.
  - exists [], (a :: l). split; [reflexivity|]. split; [auto|]. constructor; [exact L|]. eapply Forall_impl; [|exact Ha]. cbn. intros. lia.
Qed.
Lemma sorted_join : forall {A} (lo hi : list (nat * A)) e, StronglySorted (fun a b => fst a <= fst b) (lo ++ hi) -> Forall (fun x => fst x <= fst e) lo -> Forall (fun x => fst e < fst x) hi ->
  StronglySorted (fun a b => fst a <= fst b) (lo ++ e :: hi).
Proof.
  intros A lo hi e. induction lo as [|a lo IH]; cbn [app]; intros H Hl Hh.
  - constructor; [exact H|]. eapply Forall_impl; [|exact Hh]. cbn. intros. lia.
  - inversion H as [|? ? H1 H2]; subst. inversion Hl as [|? ? L1 L2]; subst. constructor; [auto|]. rewrite Forall_app in *. destruct H2. split; auto.
Qed.
Lemma sorts_step : forall {A} (r lo hi : list (nat * A)) e, sorts r (lo ++ hi) -> Forall (fun x => fst x <= fst e) lo -> Forall (fun x => fst e < fst x) hi -> sorts (r ++ [e]) (lo ++ e :: hi).
Proof.
  intros A r lo hi e (P & S & St) Hl Hh. split; [|split].
  - etransitivity; [apply Permutation_app_comm|]. cbn. etransitivity; [apply perm_skip; exact P|]. apply Permutation_middle.
  - apply sorted_join; auto.
  - intros c. rewrite !filter_app, <- St, filter_app. cbn [filter]. destruct (Nat.eqb_spec (fst e) c) as [Q|Q]; [|rewrite app_nil_r; reflexivity].
    assert (Z : filter (fun e => fst e =? c) hi = []). { clear - Hh Q. induction Hh as [|h hi Hh _ IH]; [reflexivity|]. cbn. destruct (Nat.eqb_spec (fst h) c); [lia|exact IH]. }
    rewrite Z, app_nil_r. reflexivity.
Qed.
Lemma insert_ok : forall {A} size (pre r cur : list (nat * A)) e s k, holds size (pre ++ cur) s -> sorts r cur -> i_row s = S k -> aget (i_ptr s) k = Ok (length pre) ->
  (length (pre ++ cur) < size -> exists s' cur', insert (fst e) (snd e) s = Ok s' /\ holds size (pre ++ cur') s' /\ sorts (r ++ [e]) cur' /\ length cur' = S (length cur) /\ i_row s' = i_row s /\ i_ptr s' = i_ptr s) /\
  (length (pre ++ cur) = size -> insert (fst e) (snd e) s = UB).
Proof.
  intros A size pre r cur e s k (Hx & ti & td & Ei & Ed & Hl & Ht) Hso Hr Hp. unfold insert. rewrite Hr, Hp. cbn [obind]. rewrite Hx, Ei, Ed. split; intros Hn.
  - destruct ti as [|x ti]; [cbn in Hl; lia|]. destruct td as [|y td]; [discriminate|]. destruct Hso as (P & S & St). destruct (sorted_split cur (fst e) S) as (lo & hi & -> & H1 & H2).
    destruct (shift_ok hi pre lo (fst e) x ti y td H1 H2) as (x' & y' & ->). cbn [obind]. rewrite aset_mid by (rewrite ks_length; reflexivity). cbn [obind]. rewrite aset_mid by (rewrite vs_length; reflexivity). cbn [obind].
    eexists. exists (lo ++ e :: hi). split; [reflexivity|]. split; [|split; [|split; [|split]]].
    + split; [cbn [i_idx]; rewrite !app_length; cbn; lia|]. exists ti, td. cbn [i_ind i_dat]. unfold ks, vs. rewrite !map_app. cbn [map]. rewrite <- !app_assoc. split; [reflexivity|]. split; [reflexivity|].
      rewrite !app_length in *. cbn in *. lia.
    + apply sorts_step; auto. split; auto.
    + rewrite !app_length. cbn. lia.
    + cbn. auto.
    + reflexivity.
  - assert (ti = []) by (destruct ti; [reflexivity|cbn in Hl; lia]). subst ti. assert (td = []) by (destruct td; [reflexivity|discriminate]). subst td. rewrite !app_nil_r. set (L := pre ++ cur) in *.
    destruct (length L) as [|n] eqn:E.
    + cbn. rewrite aset_end by (rewrite ks_length; lia). reflexivity.
    + destruct (shift_full (length pre) (fst e) n (ks L) (vs L)) as [-> | ->]; [rewrite ks_length; exact E|reflexivity|]. cbn [obind]. rewrite aset_end by (rewrite ks_length; lia). reflexivity.
Qed.
Lemma inserts : forall {A} size (pre es r cur : list (nat * A)) s k, holds size (pre ++ cur) s -> sorts r cur -> length cur = length r -> i_row s = S k -> aget (i_ptr s) k = Ok (length pre) ->
  (length (pre ++ cur) + length es <= size -> exists s' cur', ofold (fun s e => insert (fst e) (snd e) s) es s = Ok s' /\ holds size (pre ++ cur') s' /\ sorts (r ++ es) cur' /\ i_row s' = i_row s /\ i_ptr s' = i_ptr s) /\
  (size < length (pre ++ cur) + length es -> ofold (fun s e => insert (fst e) (snd e) s) es s = UB).
Proof.
  intros A size pre es. induction es as [|e es IH]; intros r cur s k Hh Hso Hlen Hr Hp.
  - cbn [length ofold]. split; intros Hn; [exists s, cur; rewrite app_nil_r; auto|]. destruct Hh as (_ & ti & td & _ & _ & Hl & _). lia.
  - cbn [length ofold]. destruct (insert_ok size pre r cur e s k Hh Hso Hr Hp) as [Ho Hu]. destruct (Nat.eq_dec (length (pre ++ cur)) size) as [Q|Q].
    + split; intros Hn; [lia|]. rewrite Hu by exact Q. reflexivity.
    + assert (Hlt : length (pre ++ cur) < size) by (destruct Hh as (_ & ti & td & _ & _ & Hl & _); lia).
      destruct (Ho Hlt) as (s' & cur' & -> & H1 & H2 & H3 & H4 & H5). cbn [obind]. rewrite <- H4 in Hr. rewrite <- H5 in Hp.
      destruct (IH (r ++ [e]) cur' s' k H1 H2) as [Ho' Hu']; [rewrite app_length; cbn; lia|exact Hr|exact Hp|]. rewrite !app_length in *. split; intros Hn.
      * destruct Ho' as (s'' & cur'' & K1 & K2 & K3 & K4 & K5); [lia|]. exists s'', cur''. rewrite <- app_assoc in K3. split; [exact K1|]. split; [exact K2|]. split; [exact K3|]. split; congruence.
      * apply Hu'. lia.
Qed.
Lemma start_at : forall {A} n (s : inserter A), i_row s + n <= length (i_ptr s) -> exists p, ofold (fun s _ => start_row s) (seq (i_row s) n) s = Ok (Ins (i_idx s) (i_row s + n) p (i_ind s) (i_dat s)) /\
  length p = length (i_ptr s) /\ (forall j, j < i_row s -> nth_error p j = nth_error (i_ptr s) j) /\ forall j, i_row s <= j < i_row s + n -> nth_error p j = Some (i_idx s).
Proof.
  intros A n. induction n as [|n IH]; intros s Hn.
  - exists (i_ptr s). cbn. rewrite Nat.add_0_r. destruct s; cbn. repeat split; auto. intros; lia.
  - cbn [seq ofold]. unfold start_row at 1, aset. destruct (Nat.ltb_spec (i_row s) (length (i_ptr s))) as [L|L]; [|lia]. cbn [omap obind].
    destruct (IH (Ins (i_idx s) (S (i_row s)) (upd (i_ptr s) (i_row s) (i_idx s)) (i_ind s) (i_dat s))) as (p & E & H1 & H2 & H3); [cbn; rewrite upd_length; lia|].
    exists p. cbn [i_idx i_row i_ptr i_ind i_dat] in *. rewrite E. rewrite upd_length in H1. split; [do 2 f_equal; lia|]. split; [exact H1|]. split.
    + intros j Hj. rewrite H2 by lia. apply nth_error_upd_neq. lia.
    + intros j Hj. destruct (Nat.eq_dec j (i_row s)) as [->|D]; [rewrite H2 by lia; apply nth_error_upd_eq; exact L|apply H3; lia].
Qed.
Definition filling {A} (R size : nat) (done : list (list (nat * A))) (s : inserter A) : Prop :=
  holds size (concat done) s /\ length (i_ptr s) = S R /\ i_row s <= length done /\
  (forall j, j < i_row s -> nth_error (i_ptr s) j = Some (length (concat (firstn j done)))) /\ forall j, i_row s <= j <= length done -> length (concat (firstn j done)) = length (concat done).
Lemma open_row : forall {A} R size (done : list (list (nat * A))) s, filling R size done s -> length done <= R ->
  exists s', start_row_at (length done) s = Ok s' /\ holds size (concat done) s' /\ length (i_ptr s') = S R /\ i_row s' = S (length done) /\ forall j, j <= length done -> nth_error (i_ptr s') j = Some (length (concat (firstn j done))).
Proof.
  intros A R size done s (Hh & Hp & Hr & Hb & Ha) HR. unfold start_row_at. destruct (start_at (S (length done) - i_row s) s) as (p & E & H1 & H2 & H3); [lia|]. rewrite E. eexists. split; [reflexivity|].
  destruct Hh as (Hx & ti & td & Hh). cbn [i_idx i_row i_ptr i_ind i_dat]. split; [split; [exact Hx|exists ti, td; exact Hh]|]. split; [lia|]. split; [lia|]. intros j Hj. destruct (Nat.lt_ge_cases j (i_row s)) as [L|L].
  - rewrite H2 by exact L. auto.
  - rewrite H3 by lia. rewrite Ha by lia. rewrite Hx. reflexivity.
Qed.
Lemma firstn_snoc : forall {T} (l : list T) x j, j <= length l -> firstn j (l ++ [x]) = firstn j l.
Proof. intros T l x j H. rewrite firstn_app. replace (j - length l) with 0 by lia. cbn. apply app_nil_r. Qed.
Lemma fill_one : forall {A} open R size (done : list (list (nat * A))) s r, filling R size done s -> length done < R ->
  (length (concat done) + length r <= size -> exists s' r', fill_row open s (length done, r) = Ok s' /\ sorts r r' /\ filling R size (done ++ [r']) s') /\
  (size < length (concat done) + length r -> fill_row open s (length done, r) = UB).
Proof.
  intros A open R size done s r Hf HR. unfold fill_row. cbn [fst snd]. destruct (negb (open (length done)) && (length r =? 0)) eqn:B.
  - apply andb_true_iff in B. destruct B as [_ B]. apply Nat.eqb_eq in B. destruct r; [|discriminate]. destruct Hf as (Hh & Hp & Hr & Hb & Ha). split; intros Hn.
    + exists s, []. split; [reflexivity|]. split; [repeat split; auto; constructor|].
      assert (Ec : concat (done ++ [[]]) = concat done) by (rewrite concat_app; cbn; apply app_nil_r). unfold filling. rewrite Ec, app_length. cbn [length]. split; [exact Hh|]. split; [exact Hp|]. split; [lia|]. split; intros j Hj.
      * rewrite firstn_snoc by lia. auto.
      * destruct (Nat.le_gt_cases j (length done)) as [L|L]; [rewrite firstn_snoc by exact L; apply Ha; lia|]. rewrite firstn_all2 by (rewrite app_length; cbn; lia). rewrite Ec. reflexivity.
    + destruct Hh as (_ & ti & td & _ & _ & Hl & _). cbn in Hn. lia.
  - destruct (open_row R size done s Hf) as (s1 & -> & H1 & H2 & H3 & H4); [lia|]. cbn [obind].
    destruct (inserts size (concat done) r [] [] s1 (length done)) as [Ho Hu].
    { rewrite app_nil_r. exact H1. } { repeat split; constructor. } { reflexivity. } { exact H3. } { unfold aget. rewrite H4, firstn_all by lia. reflexivity. }
    rewrite app_nil_r in *. cbn [app] in *. split; [intros Hn|exact Hu]. destruct (Ho Hn) as (s' & r' & E & K1 & K2 & K3 & K4). exists s', r'. split; [exact E|]. split; [exact K2|].
    assert (Ec : concat (done ++ [r']) = concat done ++ r') by (rewrite concat_app; cbn; rewrite app_nil_r; reflexivity). unfold filling. rewrite Ec, app_length. cbn [length]. rewrite K3, K4. split; [exact K1|]. split; [exact H2|]. split; [lia|]. split; intros j Hj.
    + rewrite firstn_snoc by lia. apply H4. lia.
    + rewrite firstn_all2 by (rewrite app_length; cbn; lia). rewrite Ec. reflexivity.
Qed.
Lemma sorts_length : forall {A} (r s : list (nat * A)), sorts r s -> length s = length r.
Proof. intros A r s (P & _). symmetry. apply Permutation_length. exact P. Qed.
Lemma fill_all : forall {A} open R size (rows done : list (list (nat * A))) s, filling R size done s -> length done + length rows <= R ->
  (length (concat done) + length (concat rows) <= size -> exists s' rows', ofold (fill_row open) (combine (seq (length done) (length rows)) rows) s = Ok s' /\ Forall2 sorts rows rows' /\ filling R size (done ++ rows') s') /\
  (size < length (concat done) + length (concat rows) -> ofold (fill_row open) (combine (seq (length done) (length rows)) rows) s = UB).
Proof.
  intros A open R size rows. induction rows as [|r rows IH]; intros done s Hf HR.
  - cbn. split; intros Hn; [exists s, []; rewrite app_nil_r; auto|]. destruct Hf as ((_ & ti & td & _ & _ & Hl & _) & _). lia.
  - cbn [length seq combine ofold concat] in *. rewrite app_length. destruct (fill_one open R size done s r Hf) as [Ho Hu]; [lia|]. destruct (Nat.le_gt_cases (length (concat done) + length r) size) as [L|L].
    + destruct (Ho L) as (s1 & r' & -> & S1 & F1). cbn [obind]. pose proof (sorts_length _ _ S1) as Z. destruct (IH (done ++ [r']) s1 F1) as [Ho' Hu']; [rewrite app_length; cbn; lia|].
      assert (Ec : length (concat (done ++ [r'])) = length (concat done) + length r) by (rewrite concat_app, app_length; cbn; rewrite app_nil_r; lia). rewrite Ec, app_length in *. cbn [length] in *. rewrite Nat.add_1_r in *. split; intros Hn.
      * destruct Ho' as (s' & rows' & K1 & K2 & K3); [lia|]. exists s', (r' :: rows'). split; [exact K1|]. split; [constructor; auto|]. rewrite <- app_assoc in K3. exact K3.
      * apply Hu'. lia.
    + rewrite Hu by exact L. split; intros; [lia|reflexivity].
Qed.
Lemma cells_some : forall {T U} (f : U -> T) l, cells (map (fun e => Some (f e)) l) = Ok (map f l).
Proof. intros T U f l. induction l as [|x l IH]; [reflexivity|]. cbn. rewrite IH. reflexivity. Qed.
Lemma filling_start : forall {A} R size, filling R size (@nil (list (nat * A))) (inserter_make R size).
Proof.
  intros A R size. unfold filling, inserter_make. cbn [i_idx i_row i_ptr i_ind i_dat concat length]. rewrite repeat_length. split; [|split; [reflexivity|split; [lia|split]]].
  - split; [reflexivity|]. exists (repeat None size), (repeat None size). cbn. rewrite !repeat_length. auto.
  - intros; lia.
  - intros j _. rewrite firstn_nil. reflexivity.
Qed.
(** Rows filled in order, in any order of columns, rows without elements opened or not: if the space is sufficient the arrays are
    those of the rows sorted by column, the elements of a column in the order in which they came. *)
Theorem C116_fill : forall A open (rows : list (list (nat * A))) size, length (concat rows) <= size ->
  exists m rows', fill open rows size = Ok m /\ Forall2 sorts rows rows' /\ rep rows' m.
Proof.
  intros A open rows size Hn. destruct (fill_all open (length rows) size rows [] _ (filling_start _ size)) as [Ho _]; [cbn; lia|]. destruct (Ho Hn) as (s & rows' & E & S & F). unfold fill. cbn [length] in E. rewrite E. cbn [obind app] in *.
  assert (Z : length rows = length rows') by (clear - S; induction S; cbn; congruence). unfold compress. pose proof F as (_ & Hp & _). rewrite Hp. cbn [Nat.sub]. rewrite Nat.sub_0_r, Z.
  destruct (open_row _ _ _ _ F) as (s' & -> & (Hx & ti & td & Ei & Ed & _) & H2 & H3 & H4); [lia|]. cbn [obind]. rewrite Hx, Ei, Ed.
  rewrite !firstn_app, ks_length, vs_length, Nat.sub_diag. cbn [firstn]. rewrite !app_nil_r, !firstn_all2 by (rewrite ?ks_length, ?vs_length; lia). unfold ks, vs. rewrite !cells_some. cbn [obind].
  eexists. exists rows'. split; [reflexivity|]. split; [exact S|]. split; [|split; reflexivity]. cbn [ptr].
  apply (nth_ext _ _ 0 0); [rewrite offsets_length; lia|]. intros j Hj. rewrite H2 in Hj. assert (L : j <= length rows') by lia. pose proof (H4 j L) as G. rewrite (nth_error_nth _ _ 0 G).
  pose proof (offsets_at rows' (firstn j rows') (skipn j rows') (eq_sym (firstn_skipn j rows'))) as O. rewrite firstn_length, Nat.min_l in O by exact L. unfold aget in O. destruct (nth_error (offsets 0 rows') j) as [y|] eqn:Y; [|discriminate]. injection O as ->. rewrite (nth_error_nth _ _ 0 Y). reflexivity.
Qed.
Print Assumptions C116_fill.
(** One element more than there is space for is written outside. *)
Theorem C116_fill_full : forall A open (rows : list (list (nat * A))) size, size < length (concat rows) -> fill open rows size = UB.
Proof.
  intros A open rows size Hn. destruct (fill_all open (length rows) size rows [] _ (filling_start _ size)) as [_ Hu]; [cbn; lia|]. unfold fill. cbn [length concat Nat.add] in Hu. rewrite Hu by exact Hn. reflexivity.
Qed.
Print Assumptions C116_fill_full.

(** ** Examples *)
Definition rows_ex : list (list (nat * bool)) := [[]; [(0, true); (2, false)]; []; [(1, true); (1, false); (3, true)]].
Definition csr_ex : csr bool := Csr [0; 0; 2; 2; 5] [0; 2; 1; 1; 3] [true; false; true; false; true].
Example C116_rep_ex : rep rows_ex csr_ex. Proof. repeat split. Qed.
Example C116_for_each_ex : for_each csr_ex = Ok [(1, 0, true); (1, 2, false); (3, 1, true); (3, 1, false); (3, 3, true)]. Proof. reflexivity. Qed.
Example C116_row_ex : for_each_in_row csr_ex 3 = Ok [(1, true); (1, false); (3, true)] /\ for_each_in_row csr_ex 4 = UB. Proof. split; reflexivity. Qed.
Example C116_max_ex : max_nnz_per_row csr_ex = Ok 3. Proof. reflexivity. Qed.
Example C116_scipy_ex : scipy_row csr_ex 5 1 = Ok [(0, true); (2, false)] /\ scipy_row csr_ex 5 2 = Ok []. Proof. split; reflexivity. Qed.
(** The first buffer is reported at row 0 though its first element is in row 1; the second begins inside row 3. *)
Example C116_buffered_ex : buffered_for_each csr_ex 3 = Ok [Visit 1 0 true 0; Visit 1 2 false 1; Visit 3 1 true 2; Process 0 0 3; Visit 3 1 false 0; Visit 3 3 true 1; Process 3 3 2]
  /\ slice_for_each csr_ex 3 3 2 = Ok [(3, 1, false, 0); (3, 3, true, 1)].
Proof. split; reflexivity. Qed.
(** A buffer of size 0 never becomes full: an empty report at the first element, then the positions grow without bound. *)
Example C116_buffered_zero : buffered_for_each csr_ex 0 = Ok [Process 0 0 0; Visit 1 0 true 0; Visit 1 2 false 1; Visit 3 1 true 2; Visit 3 1 false 3; Visit 3 3 true 4; Process 1 0 5]. Proof. reflexivity. Qed.
Example C116_fill_ex : fill (fun _ => false) [[]; [(2, false); (0, true)]; []; [(3, true); (1, true); (1, false)]] 6 = Ok csr_ex. Proof. reflexivity. Qed.
Example C116_fill_full_ex : fill (fun _ => true) [[]; [(2, false); (0, true)]; []; [(3, true); (1, true); (1, false)]] 4 = UB. Proof. reflexivity. Qed.
(** A row opened again after a later one is not reopened: its element is stored in the later row, without any report. *)
Example C116_reopen : obind (start_row_at 1 (inserter_make 2 1)) (fun s => obind (start_row_at 0 s) (fun s => obind (insert 5 true s) compress)) = Ok (Csr [0; 0; 1] [5] [true]). Proof. reflexivity. Qed.
(** An element without any row: the row pointer before the first is read. *)
Example C116_no_row : insert 5 true (inserter_make 2 1) = UB. Proof. reflexivity. Qed.
