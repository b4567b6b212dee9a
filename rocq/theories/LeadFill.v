(* Filling the gap between a lead and the structure, row by row. *)
From Verif Require Import Base Rle Blocks BlocksProofs Foundation IndexProofs FoundationSpec FoundationFacts Leads LeadsSpec LeadRows.

Lemma existsb_nth_true : forall l, existsb (fun b : bool => b) l = true <-> exists m, m < length l /\ nth m l false = true.
Proof.
  intros l. rewrite existsb_exists. split.
  - intros (x & Hx & ->). apply In_nth_error in Hx. destruct Hx as (m & Hm). exists m.
    split; [apply nth_error_Some; congruence|apply nth_error_nth; auto].
  - intros (m & Hm & E). exists true. split; auto. rewrite <- E. apply nth_In. auto.
Qed.

Lemma existsb_nth_false : forall l, existsb (fun b : bool => b) l = false -> forall m, nth m l false = false.
Proof.
  intros l H m. destruct (nth m l false) eqn:E; auto. exfalso.
  assert (m < length l) by (destruct (Nat.lt_ge_cases m (length l)); auto; rewrite nth_overflow in E by lia; discriminate).
  assert (existsb (fun b : bool => b) l = true) by (apply existsb_nth_true; eauto). congruence.
Qed.

Lemma combine_seq_map : forall {B} (g : nat -> B) a n, combine (seq a n) (map g (seq a n)) = map (fun m => (m, g m)) (seq a n).
Proof. intros B g a n. revert a. induction n; intros a; [reflexivity|]. cbn [seq map combine]. rewrite IHn. reflexivity. Qed.

Lemma agetZ_ok : forall {A} (l : list A) z d, (0 <= z)%Z -> Z.to_nat z < length l -> agetZ l z = Ok (nth (Z.to_nat z) l d).
Proof. intros A l z d H H2. unfold agetZ. destruct (Z.ltb_spec z 0); [lia|]. apply aget_ok. auto. Qed.

Section Fill.
  Variable f : nat -> nat -> site.           (* row (depth), column *)
  Variable L : nat.
  Notation at_ d m := (Z.to_nat (s_flat (f d m))).

  Lemma fill_row_ok : forall d len a valid jv, a + len <= L -> length jv = L ->
    (forall m, m < L -> (0 <= s_flat (f d m))%Z /\ at_ d m < length valid) ->
    (forall m m', m < L -> m' < L -> at_ d m = at_ d m' -> m = m') ->
    exists valid' jv', ofold fill_site (map (fun m => (m, f d m)) (seq a len)) (valid, jv) = Ok (valid', jv') /\
      length valid' = length valid /\ length jv' = L /\
      (forall m, a <= m < a + len -> nth m jv' false = nth m jv false && negb (nth (at_ d m) valid false)) /\
      (forall m, ~ a <= m < a + len -> nth m jv' false = nth m jv false) /\
      (forall m, a <= m < a + len -> nth (at_ d m) valid' false = nth (at_ d m) valid false || nth m jv false) /\
      (forall q, (forall m, a <= m < a + len -> q <> at_ d m) -> nth q valid' false = nth q valid false).
  Proof.
    intros d len. induction len as [|len IH]; intros a valid jv Ha Hj Hr Hi.
    - exists valid, jv. split; [reflexivity|]. split; [reflexivity|]. split; [exact Hj|].
      split; [intros; lia|]. split; [reflexivity|]. split; [intros; lia|reflexivity].
    - destruct (Hr a ltac:(lia)) as [R1 R2].
      assert (STEP : exists v1 j1, fill_site (valid, jv) (a, f d a) = Ok (v1, j1) /\ length v1 = length valid /\ length j1 = L /\
        nth a j1 false = nth a jv false && negb (nth (at_ d a) valid false) /\ (forall m, m <> a -> nth m j1 false = nth m jv false) /\
        nth (at_ d a) v1 false = nth (at_ d a) valid false || nth a jv false /\ (forall q, q <> at_ d a -> nth q v1 false = nth q valid false)).
      { unfold fill_site. cbn [fst snd]. rewrite (aget_ok _ _ false) by lia. cbn [obind].
        destruct (nth a jv false) eqn:EJ; cbn [negb].
        - rewrite (agetZ_ok _ _ false) by auto. cbn [obind]. destruct (nth (at_ d a) valid false) eqn:EV; cbn [negb].
          + exists valid, (upd jv a false). split; [reflexivity|]. split; [reflexivity|]. rewrite upd_length. split; [exact Hj|].
            split; [apply nth_upd_eq; lia|]. split; [intros; apply nth_upd_neq; lia|]. split; [rewrite EV; reflexivity|reflexivity].
          + exists (upd valid (at_ d a) true), jv. split.
            { unfold asetZ. rewrite (agetZ_ok _ _ false) by auto. reflexivity. }
            rewrite upd_length. split; [reflexivity|]. split; [exact Hj|]. split; [rewrite EJ; reflexivity|]. split; [reflexivity|].
            split; [rewrite nth_upd_eq by auto; reflexivity|]. intros; apply nth_upd_neq; lia.
        - exists valid, jv. split; [reflexivity|]. split; [reflexivity|]. split; [exact Hj|]. split; [exact EJ|]. split; [reflexivity|].
          split; [rewrite orb_false_r; reflexivity|reflexivity]. }
      destruct STEP as (v1 & j1 & ES & Lv & Lj & A1 & A2 & A3 & A4).
      destruct (IH (S a) v1 j1) as (v2 & j2 & E2 & Lv2 & Lj2 & B1 & B2 & B3 & B4); [lia|exact Lj|rewrite Lv; exact Hr|exact Hi|].
      assert (NE : forall m, S a <= m < S a + len -> at_ d m <> at_ d a).
      { intros m Hm E. apply Hi in E; lia. }
      exists v2, j2. split.
      { cbn [seq map ofold]. rewrite ES. cbn [obind]. exact E2. }
      split; [congruence|]. split; [exact Lj2|]. split; [|split; [|split]].
      + intros m Hm. destruct (Nat.eq_dec m a) as [->|Ne].
        * rewrite B2 by lia. exact A1.
        * rewrite B1 by lia. rewrite A2 by lia. rewrite A4 by (apply NE; lia). reflexivity.
      + intros m Hm. rewrite B2 by lia. apply A2. lia.
      + intros m Hm. destruct (Nat.eq_dec m a) as [->|Ne].
        * rewrite B4; [exact A3|]. intros m Hm' E. symmetry in E. apply (NE m Hm' E).
        * rewrite B3 by lia. rewrite A2 by lia. rewrite A4 by (apply NE; lia). reflexivity.
      + intros q Hq. rewrite B4; [apply A4; apply Hq; lia|]. intros m Hm. apply Hq. lia.
  Qed.

  Fixpoint fill_rows (ds : list nat) (st : list bool * list bool) : outcome (list bool) :=
    match ds with
    | [] => Throw
    | d :: t =>
      obind (ofold fill_site (map (fun m => (m, f d m)) (seq 0 L)) st) (fun st' =>
      if existsb (fun b => b) (snd st') then fill_rows t st' else Ok (fst st'))
    end.

  Lemma fill_rows_ok : forall len d N valid jv, length valid = N -> length jv = L ->
    (forall d' m, d <= d' < d + len -> m < L -> (0 <= s_flat (f d' m))%Z /\ at_ d' m < N) ->
    (forall d1 d2 m m', d <= d1 < d + len -> d <= d2 < d + len -> m < L -> m' < L -> at_ d1 m = at_ d2 m' -> d1 = d2 /\ m = m') ->
    existsb (fun b => b) jv = true ->
    match fill_rows (seq d len) (valid, jv) with
    | Ok v' => length v' = N /\
        (forall m, m < L -> nth m jv false = true -> exists d', d <= d' < d + len /\ nth (at_ d' m) valid false = true) /\
        (forall q, nth q v' false = true <-> nth q valid false = true \/
           exists d' m, d <= d' < d + len /\ m < L /\ q = at_ d' m /\ nth m jv false = true /\
             forall d'', d <= d'' <= d' -> nth (at_ d'' m) valid false = false)
    | Throw => exists m, m < L /\ nth m jv false = true /\ forall d', d <= d' < d + len -> nth (at_ d' m) valid false = false
    | UB => False
    end.
  Proof.
    induction len as [|len IH]; intros d N valid jv HN HL Hr Hi HE.
    - cbn [seq fill_rows]. apply existsb_nth_true in HE. destruct HE as (m & Hm & E). exists m. split; [lia|]. split; [exact E|]. intros; lia.
    - cbn [seq fill_rows].
      destruct (fill_row_ok d L 0 valid jv) as (v1 & j1 & E1 & Lv & Lj & B1 & _ & B3 & B4);
        [lia|exact HL|intros m Hm; rewrite HN; apply Hr; lia|intros m m' Hm Hm' E; apply (Hi d d m m') in E; [tauto|lia..]|].
      rewrite E1. cbn [obind fst snd].
      assert (LATER : forall d' m, S d <= d' < d + S len -> m < L -> nth (at_ d' m) v1 false = nth (at_ d' m) valid false).
      { intros d' m Hd Hm. apply B4. intros m' Hm' E. apply (Hi d' d m m') in E; lia. }
      destruct (existsb (fun b => b) j1) eqn:EX.
      + specialize (IH (S d) N v1 j1). 
        assert (X := IH ltac:(lia) Lj ltac:(intros; apply Hr; lia) ltac:(intros; apply Hi; lia || auto) EX). clear IH.
        destruct (fill_rows (seq (S d) len) (v1, j1)) as [v'| |]; [|..].
        * destruct X as (X1 & X2 & X3). split; [exact X1|]. split.
          -- intros m Hm J. destruct (nth (at_ d m) valid false) eqn:EV; [exists d; split; [lia|exact EV]|].
             destruct (X2 m Hm) as (d' & Hd' & V); [rewrite B1 by lia; rewrite J, EV; reflexivity|].
             exists d'. split; [lia|]. rewrite LATER in V by lia. exact V.
          -- intros q. rewrite X3. split.
             ++ intros [H|(d' & m & Hd & Hm & -> & J & H)].
                ** destruct (in_dec Nat.eq_dec q (map (fun m => at_ d m) (seq 0 L))) as [I|I].
                   { apply in_map_iff in I. destruct I as (m & <- & Hm). apply in_seq in Hm. rewrite B3 in H by lia.
                     apply orb_true_iff in H. destruct (nth (at_ d m) valid false) eqn:EV; [left; reflexivity|right].
                     destruct H as [H|H]; [discriminate|]. exists d, m. split; [lia|]. split; [lia|]. split; [reflexivity|]. split; [exact H|].
                     intros d'' Hd''. replace d'' with d by lia. exact EV. }
                   { rewrite B4 in H; [left; exact H|]. intros m Hm ->. apply I. apply in_map_iff. exists m. split; [reflexivity|apply in_seq; lia]. }
                ** right. exists d', m. rewrite B1 in J by lia. apply andb_true_iff in J. destruct J as [J1 J2]. apply negb_true_iff in J2.
                   split; [lia|]. split; [lia|]. split; [reflexivity|]. split; [exact J1|].
                   intros d'' Hd''. destruct (Nat.eq_dec d'' d) as [->|Ne]; [exact J2|]. rewrite <- LATER by lia. apply H. lia.
             ++ intros [H|(d' & m & Hd & Hm & -> & J & H)].
                ** left. destruct (in_dec Nat.eq_dec q (map (fun m => at_ d m) (seq 0 L))) as [I|I].
                   { apply in_map_iff in I. destruct I as (m & <- & Hm). apply in_seq in Hm. rewrite B3 by lia. rewrite H. reflexivity. }
                   { rewrite B4; [exact H|]. intros m Hm ->. apply I. apply in_map_iff. exists m. split; [reflexivity|apply in_seq; lia]. }
                ** destruct (Nat.eq_dec d' d) as [->|Ne].
                   { left. rewrite B3 by lia. rewrite J. apply orb_true_r. }
                   right. exists d', m. split; [lia|]. split; [lia|]. split; [reflexivity|]. split.
                   { rewrite B1 by lia. rewrite J, (H d) by lia. reflexivity. }
                   intros d'' Hd''. rewrite LATER by lia. apply H. lia.
        * destruct X as (m & Hm & J & H). exists m. split; [exact Hm|]. rewrite B1 in J by lia. apply andb_true_iff in J. destruct J as [J1 J2].
          apply negb_true_iff in J2. split; [exact J1|]. intros d' Hd'. destruct (Nat.eq_dec d' d) as [->|Ne]; [exact J2|].
          rewrite <- LATER by lia. apply H. lia.
        * exact X.
      + pose proof (existsb_nth_false _ EX) as NO.
        assert (HIT : forall m, m < L -> nth m jv false = true -> nth (at_ d m) valid false = true).
        { intros m Hm J. specialize (NO m). rewrite B1 in NO by lia. rewrite J in NO. cbn [andb] in NO. apply negb_false_iff in NO. exact NO. }
        split; [lia|]. split; [intros m Hm J; exists d; split; [lia|auto]|].
        intros q. split.
        * intros H. left. destruct (in_dec Nat.eq_dec q (map (fun m => at_ d m) (seq 0 L))) as [I|I].
          -- apply in_map_iff in I. destruct I as (m & <- & Hm). apply in_seq in Hm. rewrite B3 in H by lia.
             apply orb_true_iff in H. destruct H as [H|H]; [exact H|apply HIT; [lia|exact H]].
          -- rewrite B4 in H; [exact H|]. intros m Hm ->. apply I. apply in_map_iff. exists m. split; [reflexivity|apply in_seq; lia].
        * intros [H|(d' & m & Hd & Hm & -> & J & H)].
          -- destruct (in_dec Nat.eq_dec q (map (fun m => at_ d m) (seq 0 L))) as [I|I].
             ++ apply in_map_iff in I. destruct I as (m & <- & Hm). apply in_seq in Hm. rewrite B3 by lia. rewrite H. reflexivity.
             ++ rewrite B4; [exact H|]. intros m Hm ->. apply I. apply in_map_iff. exists m. split; [reflexivity|apply in_seq; lia].
          -- exfalso. specialize (H d ltac:(lia)). rewrite HIT in H by auto. discriminate.
  Qed.
End Fill.

(* ------------------------------------------------------------------ loops *)
Lemma any_valid_ok : forall valid sites, (forall s, In s sites -> (0 <= s_flat s)%Z /\ Z.to_nat (s_flat s) < length valid) ->
  any_valid valid sites = Ok (existsb (fun s => nth (Z.to_nat (s_flat s)) valid false) sites).
Proof.
  intros valid sites. induction sites as [|s t IH]; intros H; [reflexivity|]. cbn [any_valid existsb].
  destruct (H s (or_introl eq_refl)) as [H1 H2]. rewrite (agetZ_ok _ _ false) by auto. cbn [obind].
  destruct (nth (Z.to_nat (s_flat s)) valid false); [reflexivity|]. rewrite IH by (intros; apply H; right; auto). reflexivity.
Qed.

Lemma first_with_ok : forall F (b : Z -> bool) ks, (forall k, In k ks -> F k = Ok (b k)) -> first_with F ks = Ok (find b ks).
Proof.
  intros F b ks. induction ks as [|k t IH]; intros H; [reflexivity|]. cbn [first_with find]. rewrite H by (left; auto). cbn [obind].
  destruct (b k); [reflexivity|]. apply IH. intros; apply H; right; auto.
Qed.

Lemma rev_seq_map : forall n, rev (seq 0 n) = map (fun d => n - 1 - d) (seq 0 n).
Proof.
  induction n as [|n IH]; [reflexivity|]. rewrite seq_S at 1. rewrite rev_app_distr, IH. cbn [rev app Nat.add seq map].
  f_equal; [lia|]. rewrite <- seq_shift, map_map. apply map_ext. intros; lia.
Qed.

Lemma filter_seq_from : forall n d, filter (fun x => d <=? x) (seq 0 n) = seq d (n - d).
Proof.
  induction n as [|n IH]; intros d; [reflexivity|]. rewrite seq_S, filter_app, IH. cbn [filter Nat.add].
  destruct (Nat.leb_spec d n) as [H|H].
  - replace (S n - d) with (S (n - d)) by lia. rewrite seq_S. f_equal. f_equal. lia.
  - rewrite app_nil_r. replace (n - d) with 0 by lia. replace (S n - d) with 0 by lia. reflexivity.
Qed.

Lemma find_seq : forall (b : nat -> bool) len a,
  match find b (seq a len) with
  | Some d => a <= d < a + len /\ b d = true /\ forall d', a <= d' < d -> b d' = false
  | None => forall d', a <= d' < a + len -> b d' = false
  end.
Proof.
  intros b len. induction len as [|len IH]; intros a; cbn [seq find]; [intros; lia|].
  destruct (b a) eqn:E; [split; [lia|]; split; [exact E|intros; lia]|].
  specialize (IH (S a)). destruct (find b (seq (S a) len)) as [d|].
  - destruct IH as (I1 & I2 & I3). split; [lia|]. split; [exact I2|]. intros d' Hd'. destruct (Nat.eq_dec d' a); [subst; exact E|apply I3; lia].
  - intros d' Hd'. destruct (Nat.eq_dec d' a); [subst; exact E|apply IH; lia].
Qed.

Lemma find_map : forall {A B} (g : A -> B) p l, find p (map g l) = option_map g (find (fun x => p (g x)) l).
Proof. intros A B g p l. induction l as [|x l IH]; [reflexivity|]. cbn [map find]. destruct (p (g x)); [reflexivity|exact IH]. Qed.

Lemma filter_map_comm : forall {A B} (g : A -> B) p l, filter p (map g l) = map g (filter (fun x => p (g x)) l).
Proof. intros A B g p l. induction l as [|x l IH]; [reflexivity|]. cbn [map filter]. destruct (p (g x)); cbn [map]; rewrite IH; reflexivity. Qed.
