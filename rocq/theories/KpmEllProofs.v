(* The ELLPACK kernels compute the same reference row action as the compressed row kernels,
   for any alignment and any register width. *)
From Verif Require Import Base Scalar Kpm KpmSpec KpmVec KpmEll.
From Coq Require Import Ring.

Section EllProofs.
  Variable R : scalar.
  Variable half : R.
  Add Ring Rring : (k_ring R).
  Local Open Scope k_scope.
  Local Notation csr := (list (list (nat * R))).

  (** ** The conversion *)
  Lemma max_nnz_ge : forall (m : csr) a, (forall row, In row m -> length row <= fold_left (fun mx r => if mx <? length r then length r else mx) m a)%nat
    /\ (a <= fold_left (fun mx r => if mx <? length r then length r else mx) m a)%nat.
  Proof.
    induction m as [|r m IH]; intros a; cbn [fold_left]; [split; [intros ? []|lia]|].
    destruct (IH (if a <? length r then length r else a)%nat) as (H1 & H2). split.
    - intros row [<- | Hr]; [|auto]. destruct (Nat.ltb_spec a (length r)); lia.
    - destruct (Nat.ltb_spec a (length r)); lia.
  Qed.
  Lemma max_nnz_pos : forall (m : csr) i, entries m i <> [] -> (0 < max_nnz_per_row R m)%nat.
  Proof.
    intros m i H. unfold entries in H. destruct (Nat.lt_ge_cases i (length m)) as [Hi|Hi]; [|rewrite nth_overflow in H by auto; congruence].
    pose proof (proj1 (max_nnz_ge m 0) (nth i m []) (nth_In _ _ Hi)) as G. unfold max_nnz_per_row.
    assert (0 < length (nth i m [])) by (destruct (nth i m []); [congruence|cbn; lia]). lia.
  Qed.

  Definition padded (nnz N : nat) (row r : list (nat * R)) : Prop :=
    length r = nnz /\ (forall e, In e r -> fst e < N) /\ exists z, r = row ++ z /\ forall e, In e z -> snd e = k0.

  Lemma pad_ok : forall prev N nnz k n, (n + k <= nnz)%nat -> 0 < N ->
    (forall p, prev = Some p -> length p = nnz /\ forall e, In e p -> fst e < N) ->
    exists z, pad R prev n k = Ok z /\ length z = k /\ (forall e, In e z -> fst e < N /\ snd e = k0).
  Proof.
    intros prev N nnz k. induction k as [|k IH]; intros n Hn HN Hp; [exists []; cbn; repeat split; auto; contradiction|].
    destruct (IH (S n) ltac:(lia) HN Hp) as (z & Ez & Lz & Pz). cbn [pad].
    assert (G : exists c, match prev with None => Ok 0 | Some p => omap fst (aget p n) end = Ok c /\ c < N).
    { destruct prev as [p|]; [|exists 0; auto]. destruct (Hp p eq_refl) as (Lp & Pp).
      assert (Hlt : n < length p) by lia. unfold aget. rewrite (nth_error_nth' p (0%nat, k0) Hlt). cbn.
      eexists. split; [reflexivity|]. apply Pp. apply nth_In. auto. }
    destruct G as (c & Ec & Hc). rewrite Ec. cbn [obind]. rewrite Ez. cbn. exists ((c, k0) :: z). split; [reflexivity|].
    split; [cbn; lia|]. intros e [<- | He]; [split; auto|auto].
  Qed.

  Lemma ell_row_ok : forall N nnz prev row, length row <= nnz -> 0 < N -> (forall e, In e row -> fst e < N) ->
    (forall p, prev = Some p -> length p = nnz /\ forall e, In e p -> fst e < N) ->
    exists r, ell_row R nnz prev row = Ok r /\ padded nnz N row r.
  Proof.
    intros N nnz prev row Hl HN Hr Hp. unfold ell_row. destruct (Nat.leb_spec (length row) nnz); [|lia].
    destruct (pad_ok prev N nnz (nnz - length row) (length row) ltac:(lia) HN Hp) as (z & Ez & Lz & Pz). rewrite Ez. cbn.
    eexists. split; [reflexivity|]. split; [rewrite app_length; lia|]. split.
    - intros e He. apply in_app_iff in He. destruct He as [He|He]; [auto|apply Pz; auto].
    - exists z. split; auto. intros e He. apply Pz; auto.
  Qed.

  Lemma csr_to_ell_ok : forall m N, in_range R m N -> 0 < N ->
    exists e, csr_to_ell R m = Ok e /\ el_nnz R e = max_nnz_per_row R m
      /\ Forall2 (padded (max_nnz_per_row R m) N) m (el_rows R e).
  Proof.
    intros m N (Hl & Hc) HN. unfold csr_to_ell. set (nnz := max_nnz_per_row R m).
    match goal with |- context [ofold ?f _ _] => set (F := f) end.
    assert (G : forall rows acc prev, (forall row, In row rows -> length row <= nnz /\ forall e, In e row -> fst e < N) ->
      (forall p, prev = Some p -> length p = nnz /\ forall e, In e p -> fst e < N) ->
      exists s, ofold F rows (acc, prev) = Ok s /\ exists out, fst s = acc ++ out /\ Forall2 (padded nnz N) rows out).
    { induction rows as [|row rows IH]; intros acc prev Hr Hp.
      - eexists. split; [reflexivity|]. exists []. rewrite app_nil_r. split; [reflexivity|constructor].
      - destruct (Hr row (or_introl eq_refl)) as (Hrl & Hrc).
        destruct (ell_row_ok N nnz prev row Hrl HN Hrc Hp) as (r & Er & Pr). cbn [ofold]. unfold F at 1. cbn [fst snd].
        rewrite Er. unfold omap at 1. cbn [obind].
        destruct (IH (acc ++ [r]) (Some r)) as (s & Es & out & Eo & Fo).
        + intros row' Hi. apply Hr. right. auto.
        + intros p Ep. injection Ep as <-. split; apply Pr.
        + exists s. split; auto. exists (r :: out). split; [rewrite Eo, <- app_assoc; reflexivity|constructor; auto]. }
    destruct (G m [] None) as (s & Es & out & Eo & Fo).
    - intros row Hi. split; [apply (proj1 (max_nnz_ge m 0)); auto|]. intros e He.
      destruct (In_nth _ _ [] Hi) as (i & _ & Ei). apply (Hc i). unfold entries. rewrite Ei. auto.
    - discriminate.
    - rewrite Es. cbn. eexists. split; [reflexivity|]. split; [reflexivity|]. cbn [el_rows]. rewrite Eo. exact Fo.
  Qed.

  (** ** Row updates *)
  Section Rows.
    Variable N : nat.
    Definition upd_rows (s e : nat) (f : nat -> R -> R) (y : list R) : list R :=
      map (fun i => if in_rows s e i then f i (vec y i) else vec y i) (seq 0 N).
    Lemma upd_rows_length : forall s e f y, length (upd_rows s e f y) = N.
    Proof. intros. unfold upd_rows. rewrite map_length, seq_length. reflexivity. Qed.
    Lemma upd_rows_at : forall s e f y i, i < N -> vec (upd_rows s e f y) i = if in_rows s e i then f i (vec y i) else vec y i.
    Proof. intros. unfold upd_rows. rewrite vec_map; auto. Qed.
    Lemma upd_rows_none : forall s f y, length y = N -> upd_rows s s f y = y.
    Proof.
      intros s f y Hy. apply vec_ext; [rewrite upd_rows_length; auto|]. rewrite upd_rows_length. intros i Hi.
      rewrite upd_rows_at by auto. unfold in_rows. destruct (Nat.leb_spec s i), (Nat.ltb_spec i s); cbn; auto; lia.
    Qed.
    Lemma upd_rows_join : forall a b c f y, a <= b -> b <= c -> upd_rows b c f (upd_rows a b f y) = upd_rows a c f y.
    Proof.
      intros a b c f y H1 H2. apply vec_ext; rewrite !upd_rows_length; auto. intros i Hi.
      rewrite !upd_rows_at by auto. unfold in_rows.
      destruct (Nat.leb_spec b i), (Nat.ltb_spec i c), (Nat.leb_spec a i), (Nat.ltb_spec i b); cbn; auto; lia.
    Qed.
    Lemma upd_rows_one : forall a f y, length y = N -> a < N -> upd_rows a (S a) f y = upd y a (f a (vec y a)).
    Proof.
      intros a f y Hy Ha. apply vec_ext; [rewrite upd_rows_length, upd_length; auto|]. rewrite upd_rows_length. intros i Hi.
      rewrite upd_rows_at, vec_upd by lia. unfold in_rows.
      destruct (Nat.leb_spec a i), (Nat.ltb_spec i (S a)), (Nat.eqb_spec i a); cbn; try lia; subst; auto.
    Qed.
    Lemma upd_rows_ext : forall s e f g y, (forall i, i < N -> s <= i -> i < e -> f i (vec y i) = g i (vec y i)) -> upd_rows s e f y = upd_rows s e g y.
    Proof.
      intros s e f g y H. apply map_ext_in. intros i Hi. apply in_seq in Hi. unfold in_rows.
      destruct (Nat.leb_spec s i), (Nat.ltb_spec i e); cbn; auto. apply H; lia.
    Qed.
    Lemma upd_rows_twice : forall s e f g y, upd_rows s e g (upd_rows s e f y) = upd_rows s e (fun i v => g i (f i v)) y.
    Proof.
      intros s e f g y. apply vec_ext; rewrite !upd_rows_length; auto. intros i Hi. rewrite !upd_rows_at by auto.
      destruct (in_rows s e i); auto.
    Qed.

    (** A loop which replaces [y[row]] by [f row y[row]]. *)
    Lemma rows_loop : forall (step : list R -> nat -> outcome (list R)) f,
      (forall y row, length y = N -> row < N -> step y row = Ok (upd y row (f row (vec y row)))) ->
      forall d s y, length y = N -> (s + d <= N)%nat -> ofold step (seq s d) y = Ok (upd_rows s (s + d) f y).
    Proof.
      intros step f Hs. induction d as [|d IH]; intros s y Hy Hd.
      - cbn. rewrite Nat.add_0_r, upd_rows_none; auto.
      - cbn [seq ofold]. rewrite Hs by lia. cbn [obind]. rewrite <- upd_rows_one by lia.
        rewrite IH by (rewrite ?upd_rows_length; lia). f_equal.
        replace (S s + d)%nat with (s + S d)%nat by lia. apply upd_rows_join; lia.
    Qed.

    Lemma store_ok : forall (f : nat -> R -> R) k row y, length y = N -> (row + k <= N)%nat ->
      store R y row (map (fun i => f i (vec y i)) (seq row k)) = upd_rows row (row + k) f y.
    Proof.
      intros f k row y Hy Hk. unfold store. rewrite map_length, seq_length.
      assert (C : forall (g : nat -> R) l, combine l (map g l) = map (fun i => (i, g i)) l) by (intros g l; induction l as [|x l IHl]; cbn; [|rewrite IHl]; auto).
      rewrite C.
      assert (G : forall (g : nat -> R) k row y', length y' = N -> (row + k <= N)%nat ->
        fold_left (fun y p => upd y (fst p) (snd p)) (map (fun i => (i, g i)) (seq row k)) y' = upd_rows row (row + k) (fun i _ => g i) y').
      { clear. intros g. induction k as [|k IH]; intros row y' Hy Hk.
        - cbn. rewrite Nat.add_0_r, upd_rows_none; auto.
        - cbn [seq map fold_left fst snd]. rewrite IH by (rewrite ?upd_length; lia).
          change (upd y' row (g row)) with (upd y' row ((fun i _ => g i) row (vec y' row))).
          rewrite <- (upd_rows_one row (fun i _ => g i)) by lia.
          replace (S row + k)%nat with (row + S k)%nat by lia. apply upd_rows_join; lia. }
      rewrite (G (fun i => f i (vec y i))) by auto. apply upd_rows_ext. auto.
    Qed.
  End Rows.

  Lemma lanes_ok : forall {A} (f : nat -> outcome A) g rows, (forall r, In r rows -> f r = Ok (g r)) -> lanes f rows = Ok (map g rows).
  Proof.
    intros A f g rows H. induction rows as [|r rows IH]; [reflexivity|]. cbn [lanes map]. rewrite H by (left; auto). cbn [obind].
    rewrite IH by (intros; apply H; right; auto). reflexivity.
  Qed.

  (** ** Splitting the loop: the three parts cover [start, end) exactly once. *)
  Lemma peel_loop_ok : forall al d pos, (pos <= peel_loop al d pos <= pos + d)%nat.
  Proof. intros al d. induction d as [|d IH]; intros pos; cbn; [lia|]. destruct (al pos); [lia|]. pose proof (IH (S pos)). lia. Qed.

  Lemma vec_loop_ok : forall step fuel peel v, 0 < step -> (Z.of_nat peel <= v)%Z -> ((v - Z.of_nat peel) mod Z.of_nat step <= Z.of_nat fuel)%Z ->
    vec_loop step fuel peel v = Some (v - (v - Z.of_nat peel) mod Z.of_nat step)%Z.
  Proof.
    intros step fuel peel. induction fuel as [|fuel IH]; intros v Hs Hv Hf; unfold vec_loop; fold vec_loop;
      rewrite Z.rem_mod_nonneg by lia; pose proof (Z.mod_pos_bound (v - Z.of_nat peel) (Z.of_nat step) ltac:(lia)) as Hb;
      destruct (Z.eqb_spec ((v - Z.of_nat peel) mod Z.of_nat step) 0) as [E|E]; try (f_equal; lia).
    assert (Hle : ((v - Z.of_nat peel) mod Z.of_nat step <= v - Z.of_nat peel)%Z) by (apply Z.mod_le; lia).
    assert (E' : ((v - 1 - Z.of_nat peel) mod Z.of_nat step = (v - Z.of_nat peel) mod Z.of_nat step - 1)%Z).
    { symmetry. apply (Z.mod_unique _ _ ((v - Z.of_nat peel) / Z.of_nat step)); [lia|].
      pose proof (Z.div_mod (v - Z.of_nat peel) (Z.of_nat step) ltac:(lia)). lia. }
    rewrite IH by lia. f_equal. lia.
  Qed.

  Lemma split_ok : forall al step s e, 0 < step -> s <= e ->
    exists sp k, split_loop al step s e = Some sp /\ s <= sp_peel sp /\ vec_count step sp = k
      /\ (sp_peel sp + k * step <= e)%nat
      /\ peel_rows s sp = seq s (sp_peel sp - s)
      /\ rest_rows step e sp = seq (sp_peel sp + k * step)%nat (e - (sp_peel sp + k * step))%nat.
  Proof.
    intros al step s e Hs He. unfold split_loop. set (p := peel_loop al (e - s)%nat s).
    pose proof (peel_loop_ok al (e - s) s) as Hp. fold p in Hp.
    pose proof (Z.mod_pos_bound (Z.of_nat e - Z.of_nat p) (Z.of_nat step) ltac:(lia)) as Hb.
    rewrite vec_loop_ok by lia. cbn [option_map].
    pose proof (Z.div_mod (Z.of_nat e - Z.of_nat p) (Z.of_nat step) ltac:(lia)) as Hd.
    set (q := ((Z.of_nat e - Z.of_nat p) / Z.of_nat step)%Z) in *. set (r := ((Z.of_nat e - Z.of_nat p) mod Z.of_nat step)%Z) in *.
    assert (Hq : (0 <= q)%Z) by (apply Z.div_pos; lia).
    assert (Hc : vec_count step (Split p (Z.of_nat e - r)) = Z.to_nat q).
    { unfold vec_count. cbn [sp_vec sp_peel]. f_equal.
      replace (Z.of_nat e - r - Z.of_nat p + Z.of_nat step - 1)%Z with (q * Z.of_nat step + (Z.of_nat step - 1))%Z by lia.
      rewrite Z.div_add_l by lia. rewrite Z.div_small by lia. lia. }
    assert (Hm : Z.of_nat (Z.to_nat q * step) = (Z.of_nat step * q)%Z) by (rewrite Nat2Z.inj_mul, Z2Nat.id by lia; lia).
    eexists. exists (Z.to_nat q). split; [reflexivity|]. cbn [sp_peel]. split; [lia|]. split; [exact Hc|]. split; [lia|].
    split; [reflexivity|]. unfold rest_rows. rewrite Hc. cbn [sp_peel sp_vec]. f_equal. lia.
  Qed.

  Lemma ofold_app : forall {A B} (f : A -> B -> outcome A) l1 l2 a, ofold f (l1 ++ l2) a = obind (ofold f l1 a) (ofold f l2).
  Proof. intros A B f l1. induction l1 as [|x l1 IH]; intros l2 a; [reflexivity|]. cbn [app ofold]. destruct (f a x); cbn; auto. Qed.

  Lemma Forall2_rows : forall P (a b : csr), Forall2 P a b -> length a = length b /\ forall i, i < length a -> P (nth i a []) (nth i b []).
  Proof.
    intros P a b H. induction H as [|r r' a b Hp _ (IH1 & IH2)]; [split; [auto|cbn; intros; lia]|].
    split; [cbn; lia|]. intros [|i] Hi; cbn in *; auto. apply IH2. lia.
  Qed.

  Section Kernels.
    Variable N : nat.
    Variable m : csr.
    Variable e : ell R.
    Local Notation nnz := (el_nnz R e).
    Hypothesis Hm : length m = N.
    Hypothesis HF : Forall2 (padded nnz N) m (el_rows R e).

    Definition El (i n : nat) : nat * R := nth n (nth i (el_rows R e) []) (0%nat, k0).
    Definition term (x : list R) (i n : nat) : R := snd (El i n) * vec x (fst (El i n)).
    Definition part (x : list R) (i k : nat) : R := ksum (term x i) (seq 0 k).

    Lemma rows_len : length (el_rows R e) = N.
    Proof. rewrite <- Hm. symmetry. apply (Forall2_rows _ _ _ HF). Qed.
    Lemma row_padded : forall i, i < N -> padded nnz N (entries m i) (nth i (el_rows R e) []).
    Proof.
      intros i Hi. rewrite <- Hm in Hi. unfold entries. apply (Forall2_rows _ _ _ HF). auto.
    Qed.
    Lemma el_get_ok : forall i n, i < N -> n < nnz -> el_get R e i n = Ok (El i n) /\ fst (El i n) < N.
    Proof.
      intros i n Hi Hn. destruct (row_padded i Hi) as (L & P & _). unfold el_get, El.
      assert (Hr : i < length (el_rows R e)) by (rewrite rows_len; auto).
      unfold aget at 1. rewrite (nth_error_nth' _ [] Hr). cbn [obind]. unfold aget. assert (Hn' := Hn). rewrite <- L in Hn'.
      rewrite (nth_error_nth' _ (0%nat, k0) Hn'). split; auto. apply P. apply nth_In. auto.
    Qed.
    Lemma part_full : forall x i, i < N -> part x i nnz = act R m (vec x) i.
    Proof.
      intros x i Hi. destruct (row_padded i Hi) as (L & _ & z & Ez & Hz). unfold part, act.
      transitivity (ksum (fun p => snd p * vec x (fst p)) (nth i (el_rows R e) [])).
      - unfold term, El. rewrite <- L. clear. generalize (nth i (el_rows R e) []). intros l.
        assert (G : l = map (fun n => nth n l (0%nat, k0)) (seq 0 (length l))).
        { clear. induction l as [|a l IH]; [reflexivity|]. cbn [length seq map nth]. f_equal. rewrite <- seq_shift, map_map. exact IH. }
        transitivity (ksum (fun p => snd p * vec x (fst p)) (map (fun n => nth n l (0%nat, k0)) (seq 0 (length l)))); [rewrite ksum_map; reflexivity|rewrite <- G; reflexivity].
      - rewrite Ez, ksum_app. rewrite (ksum_0 R _ z); [ring|]. intros p Hp. rewrite Hz by auto. ring.
    Qed.
    Lemma part_S : forall x i k, part x i (S k) = part x i k + term x i k.
    Proof. intros. unfold part. rewrite seq_S, ksum_app, ksum_cons, ksum_nil. cbn [plus]. ring. Qed.

    (** *** Generic kernels *)
    Lemma negate_ok : forall s d y, length y = N -> (s + d <= N)%nat ->
      ofold (fun y row => obind (aget y row) (fun c => Ok (upd y row (kopp c)))) (seq s d) y = Ok (upd_rows N s (s + d) (fun _ c => kopp c) y).
    Proof.
      intros s d y Hy Hd. apply rows_loop; auto. intros y' row Hy' Hr. rewrite aget_vec by lia. reflexivity.
    Qed.

    Lemma generic_ok : forall s e' x y, length x = N -> length y = N -> s <= e' -> e' <= N ->
      ell_spmv_generic R e s e' x y = Ok (spmv_ref R m N s e' x y).
    Proof.
      intros s e' x y Hx Hy H1 H2. unfold ell_spmv_generic, negate_rows.
      rewrite negate_ok by lia. cbn [obind]. replace (s + (e' - s))%nat with e' by lia.
      match goal with |- ofold ?f _ _ = _ => set (F := f) end.
      assert (G : forall k, k <= nnz -> ofold F (seq 0 k) (upd_rows N s e' (fun _ c => kopp c) y)
                  = Ok (upd_rows N s e' (fun i c => part x i k - c) y)).
      { induction k as [|k IH]; intros Hk.
        - cbn. f_equal. apply upd_rows_ext. intros i _ _ _. unfold part. cbn. ring.
        - rewrite seq_S, ofold_app, IH by lia. cbn [obind ofold plus]. unfold F at 1.
          rewrite (rows_loop N _ (fun i c => c + term x i k)).
          + cbn [obind]. replace (s + (e' - s))%nat with e' by lia. rewrite upd_rows_twice. f_equal.
            apply upd_rows_ext. intros i _ _ _. rewrite part_S. ring.
          + intros y' row Hy' Hr. destruct (el_get_ok row k Hr ltac:(lia)) as (E1 & E2). rewrite E1. cbn [obind].
            rewrite aget_vec by lia. cbn [obind]. rewrite aget_vec by lia. reflexivity.
          + apply upd_rows_length.
          + lia. }
      rewrite G by lia. f_equal. unfold spmv_ref, upd_rows. apply map_ext_in. intros i Hi. apply in_seq in Hi.
      rewrite part_full by lia. reflexivity.
    Qed.

    Lemma generic_diag_ok : forall s e' x y m2 m3, length x = N -> length y = N -> s <= e' -> e' <= N ->
      ell_diag_generic R e s e' x y m2 m3
      = Ok (spmv_ref R m N s e' x y, m2 + sum_rows R s e' (fun i => kconj (vec x i) * vec x i),
            m3 + sum_rows R s e' (fun i => kconj (vec (spmv_ref R m N s e' x y) i) * vec x i)).
    Proof.
      intros s e' x y m2 m3 Hx Hy H1 H2. unfold ell_diag_generic. rewrite generic_ok by auto. cbn [obind].
      rewrite !segment_ok by (rewrite ?spmv_ref_length; lia). cbn [obind]. rewrite sq_norm_rows, dot_rows. reflexivity.
    Qed.

    Lemma make_r1_ok : forall r0, length r0 = N -> ell_make_r1 R half e r0 = Ok (r1_ref R half m N r0).
    Proof.
      intros r0 H0. unfold ell_make_r1. rewrite rows_len. match goal with |- ofold ?f _ _ = _ => set (F := f) end.
      assert (Hz : forall i, vec (repeat (k0 : R) N) i = k0).
      { intros i. unfold vec. clear. revert i. induction N; intros [|i]; cbn; auto. }
      assert (G : forall k, k <= nnz -> ofold F (seq 0 k) (repeat k0 N) = Ok (map (fun i => part r0 i k * half) (seq 0 N))).
      { induction k as [|k IH]; intros Hk.
        - cbn. f_equal. apply vec_ext; [rewrite repeat_length, map_length, seq_length; auto|]. rewrite repeat_length. intros i Hi.
          rewrite Hz, vec_map by auto. unfold part. cbn. ring.
        - rewrite seq_S, ofold_app, IH by lia. cbn [obind ofold plus]. unfold F at 1.
          rewrite (rows_loop N _ (fun i c => c + term r0 i k * half)).
          + cbn [obind]. f_equal. cbn [plus]. unfold upd_rows. apply map_ext_in. intros i Hi. apply in_seq in Hi.
            unfold in_rows. destruct (Nat.leb_spec 0 i); [|lia]. destruct (Nat.ltb_spec i N); [|lia]. cbn [andb].
            rewrite vec_map by lia. rewrite part_S. ring.
          + intros y' row Hy' Hr. destruct (el_get_ok row k Hr ltac:(lia)) as (E1 & E2). rewrite E1. cbn [obind].
            rewrite aget_vec by lia. cbn [obind]. rewrite aget_vec by lia. reflexivity.
          + rewrite map_length, seq_length. auto.
          + lia. }
      rewrite G by lia. f_equal. unfold r1_ref. apply map_ext_in. intros i Hi. apply in_seq in Hi. rewrite part_full by lia. reflexivity.
    Qed.

    (** *** Vectorised kernels *)
    Variable aligned : nat -> bool.
    Variable step : nat.
    Hypothesis Hstep : 0 < step.

    Definition next (x : list R) (n i : nat) (c : R) : R := term x i n + (if n =? 0 then kopp c else c).
    Lemma lane_ok : forall x y n i, length x = N -> length y = N -> i < N -> n < nnz -> lane R e x y n i = Ok (next x n i (vec y i)).
    Proof.
      intros x y n i Hx Hy Hi Hn. unfold lane. destruct (el_get_ok i n Hi Hn) as (E1 & E2). rewrite E1. cbn [obind].
      rewrite aget_vec by lia. cbn [obind]. rewrite aget_vec by lia. reflexivity.
    Qed.

    Lemma scalar_loop : forall x n d s y, length x = N -> n < nnz -> length y = N -> (s + d <= N)%nat ->
      ofold (scalar_step R e x n) (seq s d) y = Ok (upd_rows N s (s + d) (next x n) y).
    Proof.
      intros x n d s y Hx Hn Hy Hd. apply rows_loop; auto. intros y' row Hy' Hr. unfold scalar_step.
      rewrite lane_ok by auto. reflexivity.
    Qed.
    Lemma vector_loop : forall x n k p y, length x = N -> n < nnz -> length y = N -> (p + k * step <= N)%nat ->
      ofold (vector_step R e x step n) (map (fun k => p + k * step)%nat (seq 0 k)) y = Ok (upd_rows N p (p + k * step) (next x n) y).
    Proof.
      intros x n k p y Hx Hn Hy. induction k as [|k IH]; intros Hk.
      - cbn. rewrite Nat.add_0_r, upd_rows_none; auto.
      - rewrite seq_S, map_app, ofold_app, IH by lia. cbn [obind map ofold plus].
        unfold vector_step at 1. rewrite (lanes_ok _ (fun i => next x n i (vec (upd_rows N p (p + k * step) (next x n) y) i))).
        + unfold omap at 1. cbn [obind]. rewrite (store_ok N) by (rewrite ?upd_rows_length; lia).
          rewrite upd_rows_join by lia. replace (p + k * step + step)%nat with (p + S k * step)%nat by lia. reflexivity.
        + intros i Hi. apply in_seq in Hi. apply lane_ok; auto; [apply upd_rows_length|lia].
    Qed.

    Lemma column_ok : forall x s e' sp k n y, length x = N -> length y = N -> n < nnz -> e' <= N ->
      s <= sp_peel sp -> vec_count step sp = k -> (sp_peel sp + k * step <= e')%nat ->
      peel_rows s sp = seq s (sp_peel sp - s) ->
      rest_rows step e' sp = seq (sp_peel sp + k * step)%nat (e' - (sp_peel sp + k * step))%nat ->
      column_pass R e x step s e' sp n y = Ok (upd_rows N s e' (next x n) y).
    Proof.
      intros x s e' sp k n y Hx Hy Hn He H1 H2 H3 H4 H5. unfold column_pass. rewrite H4, H5. unfold vec_rows. rewrite H2.
      rewrite scalar_loop by lia. cbn [obind]. rewrite vector_loop by (rewrite ?upd_rows_length; lia). cbn [obind].
      rewrite scalar_loop by (rewrite ?upd_rows_length; lia).
      replace (s + (sp_peel sp - s))%nat with (sp_peel sp) by lia. rewrite upd_rows_join by lia.
      replace (sp_peel sp + k * step + (e' - (sp_peel sp + k * step)))%nat with e' by lia. rewrite upd_rows_join by lia. reflexivity.
    Qed.

    Definition after (x : list R) (k i : nat) (c : R) : R := if k =? 0 then c else part x i k - c.
    Lemma columns_ok : forall x s e' sp k y, length x = N -> length y = N -> e' <= N ->
      s <= sp_peel sp -> vec_count step sp = k -> (sp_peel sp + k * step <= e')%nat ->
      peel_rows s sp = seq s (sp_peel sp - s) ->
      rest_rows step e' sp = seq (sp_peel sp + k * step)%nat (e' - (sp_peel sp + k * step))%nat ->
      forall c, c <= nnz -> ofold (fun y n => column_pass R e x step s e' sp n y) (seq 0 c) y = Ok (upd_rows N s e' (after x c) y).
    Proof.
      intros x s e' sp k y Hx Hy He H1 H2 H3 H4 H5. induction c as [|c IH]; intros Hc.
      - cbn. f_equal. apply vec_ext; rewrite ?upd_rows_length; auto. intros i Hi. rewrite upd_rows_at by lia. cbn. destruct (in_rows s e' i); auto.
      - rewrite seq_S, ofold_app, IH by lia. cbn [obind ofold plus].
        rewrite (column_ok x s e' sp k c) by (auto; rewrite ?upd_rows_length; auto). cbn [obind]. rewrite upd_rows_twice. f_equal.
        apply upd_rows_ext. intros i _ _ _. unfold next, after. cbn [Nat.eqb]. rewrite part_S.
        destruct (Nat.eqb_spec c 0) as [-> |]; [unfold part; cbn|]; ring.
    Qed.

    Hypothesis Hnnz : 0 < nnz.
    Lemma after_full : forall s e' x y, e' <= N -> upd_rows N s e' (after x nnz) y = spmv_ref R m N s e' x y.
    Proof.
      intros s e' x y He. unfold spmv_ref, upd_rows. apply map_ext_in. intros i Hi. apply in_seq in Hi. unfold after.
      destruct (Nat.eqb_spec nnz 0); [lia|]. rewrite part_full by lia. reflexivity.
    Qed.

    Lemma simd_ok : forall s e' x y, length x = N -> length y = N -> s <= e' -> e' <= N ->
      ell_spmv_simd R aligned step 0 e s e' x y = Ok (spmv_ref R m N s e' x y).
    Proof.
      intros s e' x y Hx Hy H1 H2. destruct (split_ok aligned step s e' Hstep H1) as (sp & k & E & P1 & P2 & P3 & P4 & P5).
      unfold ell_spmv_simd. rewrite E, Nat.sub_0_r. rewrite (columns_ok x s e' sp k) by auto. rewrite after_full by auto. reflexivity.
    Qed.

    Lemma fused_scalar : forall x n d s y m2 m3, length x = N -> length y = N -> n < nnz -> (s + d <= N)%nat ->
      ofold (scalar_fused R e x n) (seq s d) (y, m2, m3)
      = Ok (upd_rows N s (s + d) (next x n) y, m2 + sum_rows R s (s + d) (fun i => kconj (vec x i) * vec x i),
            m3 + sum_rows R s (s + d) (fun i => kconj (next x n i (vec y i)) * vec x i)).
    Proof.
      intros x n d s y m2 m3 Hx Hy Hn. unfold sum_rows. replace (s + d - s)%nat with d by lia. induction d as [|d IH]; intros Hd.
      - cbn. rewrite Nat.add_0_r, upd_rows_none by auto. f_equal. f_equal; [f_equal|]; ring.
      - rewrite seq_S, ofold_app, IH by lia. cbn [obind ofold]. unfold scalar_fused at 1.
        rewrite lane_ok by (auto; rewrite ?upd_rows_length; lia). cbn [obind]. rewrite aget_vec by lia. cbn [obind].
        rewrite <- (upd_rows_one N (s + d) (next x n)) by (rewrite ?upd_rows_length; lia). rewrite upd_rows_join by lia.
        replace (S (s + d)) with (s + S d)%nat by lia. rewrite !ksum_app, !ksum_cons, !ksum_nil.
        rewrite upd_rows_at by lia. unfold in_rows. destruct (Nat.ltb_spec (s + d) (s + d)); [lia|]. rewrite andb_false_r.
        f_equal. f_equal; [f_equal|]; ring.
    Qed.

    Lemma reduce_lanes : forall (v : list R) (f : nat -> R) p, length v = step ->
      reduce_add R (map (fun q => fst q + snd q) (combine v (map f (seq p step)))) = reduce_add R v + ksum f (seq p step)
      /\ length (map (fun q => fst q + snd q) (combine v (map f (seq p step)))) = step.
    Proof.
      intros v f p Hv. split; [|rewrite map_length, combine_length, map_length, seq_length; lia].
      revert p. clear Hstep. generalize dependent step. clear. induction v as [|a v IH]; intros st Hv p; cbn in Hv; subst st.
      - cbn. unfold reduce_add. cbn. ring.
      - cbn [seq map combine]. unfold reduce_add in *. rewrite !ksum_cons. cbn [fst snd].
        specialize (IH (length v) eq_refl (S p)). rewrite IH. ring.
    Qed.

    Lemma fused_vector : forall x n k p y v2 v3, length x = N -> length y = N -> n < nnz -> length v2 = step -> length v3 = step ->
      (p + k * step <= N)%nat ->
      exists w2 w3, ofold (vector_fused R e x step n) (map (fun k => p + k * step)%nat (seq 0 k)) (y, v2, v3)
        = Ok (upd_rows N p (p + k * step) (next x n) y, w2, w3)
        /\ length w2 = step /\ length w3 = step
        /\ reduce_add R w2 = reduce_add R v2 + sum_rows R p (p + k * step) (fun i => kconj (vec x i) * vec x i)
        /\ reduce_add R w3 = reduce_add R v3 + sum_rows R p (p + k * step) (fun i => kconj (next x n i (vec y i)) * vec x i).
    Proof.
      intros x n k p y v2 v3 Hx Hy Hn L2 L3. unfold sum_rows. replace (p + k * step - p)%nat with (k * step)%nat by lia.
      induction k as [|k IH]; intros Hk.
      - exists v2, v3. cbn. rewrite Nat.add_0_r, upd_rows_none by auto. split; [reflexivity|]. split; [auto|]. split; [auto|]. split; ring.
      - destruct (IH ltac:(lia)) as (w2 & w3 & E & W2 & W3 & S2 & S3). clear IH.
        rewrite seq_S, map_app, ofold_app, E. cbn [obind map ofold plus]. unfold vector_fused at 1.
        set (y1 := upd_rows N p (p + k * step) (next x n) y).
        assert (Ly1 : length y1 = N) by apply upd_rows_length.
        rewrite (lanes_ok _ (fun i => next x n i (vec y1 i))) by (intros i Hi; apply in_seq in Hi; apply lane_ok; auto; lia).
        cbn [obind]. rewrite (lanes_ok _ (vec x)) by (intros i Hi; apply in_seq in Hi; apply aget_vec; lia). cbn [obind].
        rewrite (store_ok N) by (auto; lia). unfold y1 at 1. rewrite upd_rows_join by lia.
        replace (p + k * step + step)%nat with (p + S k * step)%nat by lia.
        destruct (reduce_lanes w2 (fun i => kconj (vec x i) * vec x i) (p + k * step) W2) as (A2 & B2).
        destruct (reduce_lanes w3 (fun i => kconj (next x n i (vec y i)) * vec x i) (p + k * step) W3) as (A3 & B3).
        assert (M2 : forall (w : list R) l, map (fun p => fst p + kconj (snd p) * snd p) (combine w (map (vec x) l))
                     = map (fun q => fst q + snd q) (combine w (map (fun i => kconj (vec x i) * vec x i) l))).
        { induction w as [|a w IHw]; intros [|b l]; cbn; auto. rewrite IHw. reflexivity. }
        assert (M3 : forall (w : list R) l, (forall i, In i l -> i < N /\ (p + k * step <= i)%nat) ->
                     map (fun p => fst p + kconj (fst (snd p)) * snd (snd p)) (combine w (combine (map (fun i => next x n i (vec y1 i)) l) (map (vec x) l)))
                     = map (fun q => fst q + snd q) (combine w (map (fun i => kconj (next x n i (vec y i)) * vec x i) l))).
        { induction w as [|a w IHw]; intros [|b l] Hl; cbn; auto. rewrite IHw by (intros; apply Hl; right; auto).
          destruct (Hl b (or_introl eq_refl)) as (Hb1 & Hb2). f_equal. f_equal. f_equal. f_equal. f_equal. unfold y1. rewrite upd_rows_at by auto.
          unfold in_rows. destruct (Nat.ltb_spec b (p + k * step)); [lia|]. rewrite andb_false_r. reflexivity. }
        rewrite M2, M3 by (intros i Hi; apply in_seq in Hi; lia).
        eexists. eexists. split; [reflexivity|]. split; [exact B2|]. split; [exact B3|].
        replace (S k * step)%nat with (k * step + step)%nat by lia. rewrite seq_app, !ksum_app.
        rewrite A2, A3, S2, S3. split; ring.
    Qed.

    Lemma simd_diag_ok : forall s e' x y m2 m3, length x = N -> length y = N -> s <= e' -> e' <= N ->
      ell_diag_simd R aligned step e s e' x y m2 m3
      = Ok (spmv_ref R m N s e' x y, m2 + sum_rows R s e' (fun i => kconj (vec x i) * vec x i),
            m3 + sum_rows R s e' (fun i => kconj (vec (spmv_ref R m N s e' x y) i) * vec x i)).
    Proof.
      intros s e' x y m2 m3 Hx Hy H1 H2. destruct (split_ok aligned step s e' Hstep H1) as (sp & k & E & P1 & P2 & P3 & P4 & P5).
      unfold ell_diag_simd, ell_spmv_simd. rewrite E. rewrite (columns_ok x s e' sp k) by (auto; lia). cbn [obind].
      assert (Hx' : exists n, nnz = S n) by (exists (nnz - 1)%nat; lia). destruct Hx' as (n & En). rewrite En. replace (S n - 1)%nat with n by lia.
      set (y1 := upd_rows N s e' (after x n) y). assert (L1 : length y1 = N) by apply upd_rows_length.
      rewrite P4, P5. unfold vec_rows. rewrite P2. set (p := sp_peel sp) in *.
      rewrite fused_scalar by (auto; lia). cbn [obind]. replace (s + (p - s))%nat with p by lia.
      destruct (fused_vector x n k p (upd_rows N s p (next x n) y1) (repeat k0 step) (repeat k0 step) Hx ltac:(apply upd_rows_length)
                  ltac:(lia) ltac:(apply repeat_length) ltac:(apply repeat_length) ltac:(lia)) as (w2 & w3 & Ef & _ & _ & S2 & S3).
      rewrite Ef. cbn [obind]. rewrite upd_rows_join by lia. set (q := (p + k * step)%nat) in *.
      rewrite fused_scalar by (auto; rewrite ?upd_rows_length; lia). cbn [obind]. replace (q + (e' - q))%nat with e' by lia.
      rewrite upd_rows_join by lia.
      assert (Ez : reduce_add R (repeat (k0 : R) step) = k0).
      { unfold reduce_add. apply ksum_0. intros a Ha. apply repeat_spec in Ha. auto. }
      assert (Ey : upd_rows N s e' (next x n) y1 = spmv_ref R m N s e' x y).
      { rewrite <- after_full by auto. unfold y1. rewrite upd_rows_twice. apply upd_rows_ext. intros i _ _ _.
        rewrite En. unfold next, after. cbn [Nat.eqb]. rewrite part_S.
        destruct (Nat.eqb_spec n 0) as [-> |]; [unfold part; cbn|]; ring. }
      assert (Hsame : forall a i, a <= i -> i < N -> vec (upd_rows N s a (next x n) y1) i = vec y1 i).
      { intros a i Ha Hi. rewrite upd_rows_at by auto. unfold in_rows. destruct (Nat.ltb_spec i a); [lia|]. rewrite andb_false_r. reflexivity. }
      assert (Hval : forall i, s <= i -> i < e' -> next x n i (vec y1 i) = vec (spmv_ref R m N s e' x y) i).
      { intros i Hi1 Hi2. rewrite <- Ey. rewrite upd_rows_at by lia. unfold in_rows.
        destruct (Nat.leb_spec s i); [|lia]. destruct (Nat.ltb_spec i e'); [|lia]. reflexivity. }
      assert (Hsum : forall a b (f g : nat -> R), (forall i, a <= i -> i < b -> f i = g i) -> sum_rows R a b f = sum_rows R a b g).
      { intros a b f g H. apply ksum_ext. intros i Hi. apply in_seq in Hi. apply H; lia. }
      assert (Hsplit : forall (f : nat -> R), sum_rows R s e' f = sum_rows R s p f + sum_rows R p q f + sum_rows R q e' f).
      { intros f. unfold sum_rows. replace (e' - s)%nat with ((p - s) + (q - p) + (e' - q))%nat by lia. rewrite !seq_app, !ksum_app.
        replace (s + (p - s))%nat with p by lia. replace (s + (p - s + (q - p)))%nat with q by lia. reflexivity. }
      rewrite Ey. f_equal. f_equal; [f_equal|].
      - rewrite S2, Ez, Hsplit. ring.
      - rewrite S3, Ez, Hsplit.
        rewrite (Hsum s p _ (fun i => kconj (vec (spmv_ref R m N s e' x y) i) * vec x i)) by (intros i Hi1 Hi2; rewrite Hval by lia; reflexivity).
        rewrite (Hsum p q _ (fun i => kconj (vec (spmv_ref R m N s e' x y) i) * vec x i)) by (intros i Hi1 Hi2; rewrite Hsame, Hval by lia; reflexivity).
        rewrite (Hsum q e' _ (fun i => kconj (vec (spmv_ref R m N s e' x y) i) * vec x i)) by (intros i Hi1 Hi2; rewrite Hsame, Hval by lia; reflexivity).
        ring.
    Qed.
  End Kernels.

  (** ** Both ELLPACK kernels meet the kernel contract. *)
  Lemma ell_generic_kernel_ok : forall m N, in_range R m N -> 0 < N -> kernel_ok R half (ell_kernel_generic R half m) m N.
  Proof.
    intros m N Hr HN. destruct (csr_to_ell_ok m N Hr HN) as (e & Ee & En & HF). rewrite <- En in HF. pose proof (proj1 Hr) as Hm.
    unfold ell_kernel_generic. rewrite Ee. split; [apply (rows_len N m e Hm HF)|]. cbn [kr_spmv kr_diag kr_r1].
    split; [intros; apply generic_ok; auto|]. split; [intros; apply generic_diag_ok; auto|intros; apply make_r1_ok; auto].
  Qed.
  Lemma ell_simd_kernel_ok : forall aligned step m N, 0 < step -> in_range R m N -> 0 < N -> (exists i, entries m i <> []) ->
    kernel_ok R half (ell_kernel_simd R half aligned step m) m N.
  Proof.
    intros al step m N Hs Hr HN (i & Hi). destruct (csr_to_ell_ok m N Hr HN) as (e & Ee & En & HF). pose proof (max_nnz_pos m i Hi) as Hp.
    rewrite <- En in HF, Hp. pose proof (proj1 Hr) as Hm.
    unfold ell_kernel_simd. rewrite Ee. split; [apply (rows_len N m e Hm HF)|]. cbn [kr_spmv kr_diag kr_r1].
    split; [intros; apply simd_ok; auto|]. split; [intros; apply simd_diag_ok; auto|intros; apply make_r1_ok; auto].
  Qed.

  (** Without any stored entry the vectorised kernels go wrong: the old vector is not negated and
      the diagonal version addresses a column which does not exist. *)
  Lemma ell_simd_empty : forall aligned step m N s e x y, 0 < step -> in_range R m N -> 0 < N -> (forall i, entries m i = []) -> s <= e ->
    kr_spmv (ell_kernel_simd R half aligned step m) s e x y = Ok y
    /\ forall m2 m3, kr_diag (ell_kernel_simd R half aligned step m) s e x y m2 m3 = UB.
  Proof.
    intros al step m N s e x y Hs Hr HN Hz Hse. destruct (csr_to_ell_ok m N Hr HN) as (el & Ee & En & HF).
    assert (E0 : max_nnz_per_row R m = 0).
    { unfold max_nnz_per_row. assert (G : forall rows : csr, (forall r, In r rows -> r = []) -> fold_left (fun mx r => if mx <? length r then length r else mx) rows 0 = 0).
      { induction rows as [|r rows IH]; intros H; [reflexivity|]. cbn [fold_left]. rewrite (H r (or_introl eq_refl)). cbn. apply IH. intros; apply H; right; auto. }
      apply G. intros r Hi. destruct (In_nth _ _ [] Hi) as (i & _ & Ei). rewrite <- Ei. apply Hz. }
    rewrite E0 in En. destruct (split_ok al step s e Hs Hse) as (sp & k & E & _).
    unfold ell_kernel_simd. rewrite Ee. cbn [kr_spmv kr_diag]. unfold ell_diag_simd, ell_spmv_simd. rewrite E, En. cbn. auto.
  Qed.
End EllProofs.
