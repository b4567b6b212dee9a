(* Lemmas about the indexing of structures. *)
From Verif Require Import Base AliasNames StructureSlice.
From Coq Require Import QArith String.
Local Open Scope nat_scope.
Local Notation len := Datatypes.length.

Lemma omap_ok : forall {A B} (f : A -> B) x y, omap f x = Ok y -> exists a, x = Ok a /\ y = f a.
Proof. intros A B f [a| |] y H; try discriminate. exists a. now inversion H. Qed.

Lemma obind_ok : forall {A B} (x : outcome A) (f : A -> outcome B) y,
  obind x f = Ok y -> exists a, x = Ok a /\ f a = Ok y.
Proof. intros A B [a| |] f y H; try discriminate. exists a. now split. Qed.

(* ---------------- resolve ---------------- *)

Lemma true_positions_bound : forall bs i, Forall (fun k => i <= k < i + len bs) (true_positions i bs).
Proof.
  induction bs as [|b t IH]; intros i; cbn [true_positions]; [constructor|].
  assert (T : Forall (fun k => i <= k < i + len (b :: t)) (true_positions (S i) t)).
  { eapply Forall_impl; [|apply (IH (S i))]. cbn [Datatypes.length]. intros; cbn beta in *; lia. }
  destruct b; [|exact T]. constructor; [cbn [Datatypes.length]; lia|exact T].
Qed.

Lemma norm_int_ok : forall n z k, norm_int n z = Ok k -> k < n /\ (Z.of_nat k = z \/ Z.of_nat k = z + Z.of_nat n)%Z.
Proof.
  unfold norm_int; intros n z k H.
  destruct ((0 <=? z) && (z <? Z.of_nat n))%Z eqn:E1.
  - apply andb_true_iff in E1. destruct E1 as [A B]. apply Z.leb_le in A. apply Z.ltb_lt in B. inversion H. lia.
  - destruct ((- Z.of_nat n <=? z) && (z <? 0))%Z eqn:E2; [|discriminate].
    apply andb_true_iff in E2. destruct E2 as [A B]. apply Z.leb_le in A. apply Z.ltb_lt in B. inversion H. lia.
Qed.

Lemma norm_int_iff : forall n z, (exists k, norm_int n z = Ok k) <-> (- Z.of_nat n <= z < Z.of_nat n)%Z.
Proof.
  unfold norm_int; intros n z. split.
  - intros [k H]. destruct ((0 <=? z) && (z <? Z.of_nat n))%Z eqn:E1.
    + apply andb_true_iff in E1. destruct E1 as [A B]. apply Z.leb_le in A. apply Z.ltb_lt in B. lia.
    + destruct ((- Z.of_nat n <=? z) && (z <? 0))%Z eqn:E2; [|discriminate].
      apply andb_true_iff in E2. destruct E2 as [A B]. apply Z.leb_le in A. apply Z.ltb_lt in B. lia.
  - intros H. destruct (Z_lt_le_dec z 0) as [L|L].
    + replace ((0 <=? z) && (z <? Z.of_nat n))%Z with false.
      2: { symmetry. apply andb_false_iff. left. apply Z.leb_gt. lia. }
      replace ((- Z.of_nat n <=? z) && (z <? 0))%Z with true.
      2: { symmetry. apply andb_true_iff. split; [apply Z.leb_le|apply Z.ltb_lt]; lia. }
      eauto.
    + replace ((0 <=? z) && (z <? Z.of_nat n))%Z with true.
      2: { symmetry. apply andb_true_iff. split; [apply Z.leb_le|apply Z.ltb_lt]; lia. }
      eauto.
Qed.

Lemma norm_int_not_ub : forall n z, norm_int n z <> UB.
Proof. unfold norm_int; intros. destruct (_ && _)%Z; [discriminate|]. destruct (_ && _)%Z; discriminate. Qed.

Lemma norm_ints_bound : forall n zs ks, norm_ints n zs = Ok ks -> Forall (fun k => k < n) ks.
Proof.
  induction zs as [|z t IH]; intros ks H; cbn [norm_ints] in H; [inversion H; constructor|].
  apply obind_ok in H. destruct H as [k [Hk H]]. apply omap_ok in H. destruct H as [r [Hr ->]].
  constructor; [now apply norm_int_ok in Hk|now apply IH].
Qed.

Lemma norm_ints_iff : forall n zs, (exists ks, norm_ints n zs = Ok ks) <-> Forall (fun z => (- Z.of_nat n <= z < Z.of_nat n)%Z) zs.
Proof.
  induction zs as [|z t IH]; cbn [norm_ints]; split; intros H.
  - constructor.
  - eauto.
  - destruct H as [ks H]. apply obind_ok in H. destruct H as [k [Hk H]]. apply omap_ok in H. destruct H as [r [Hr _]].
    constructor; [apply norm_int_iff; eauto|apply IH; eauto].
  - inversion H; subst. destruct (proj2 (norm_int_iff n z) H2) as [k Hk]. destruct (proj2 IH H3) as [r Hr].
    rewrite Hk, Hr. cbn. eauto.
Qed.

Lemma norm_ints_not_ub : forall n zs, norm_ints n zs <> UB.
Proof.
  induction zs as [|z t IH]; cbn [norm_ints]; [discriminate|].
  pose proof (norm_int_not_ub n z). destruct (norm_int n z); cbn; try congruence.
  destruct (norm_ints n t); cbn; congruence.
Qed.

Lemma slice_bound : forall n a b s ks, slice_indices n a b s = Ok ks -> Forall (fun k => k < n) ks.
Proof.
  intros n a b s ks H. unfold slice_indices in H.
  destruct (s =? 0)%Z eqn:E0; [discriminate|]. apply Z.eqb_neq in E0.
  inversion H; clear H H1.
  set (a' := match a with Some z => clamp n s z | None => (if (s <? 0) then Z.of_nat n - 1 else 0)%Z end).
  set (b' := match b with Some z => clamp n s z | None => (if (s <? 0) then -1 else Z.of_nat n)%Z end).
  apply Forall_forall. intros k Hk. apply in_map_iff in Hk. destruct Hk as [i [<- Hi]]. apply in_seq in Hi.
  destruct (s <? 0)%Z eqn:Es.
  - apply Z.ltb_lt in Es.
    assert (Ha : (a' <= Z.of_nat n - 1)%Z).
    { unfold a', clamp. destruct a as [z|]; [|lia]. replace (s <? 0)%Z with true by (symmetry; apply Z.ltb_lt; lia).
      destruct (z <? 0)%Z eqn:F1; [apply Z.ltb_lt in F1|apply Z.ltb_ge in F1].
      - destruct (z + Z.of_nat n <? 0)%Z eqn:F2; lia.
      - destruct (Z.of_nat n <=? z)%Z eqn:F2; [lia|apply Z.leb_gt in F2; lia]. }
    assert (Hb : (-1 <= b')%Z).
    { unfold b', clamp. destruct b as [z|]; [|lia]. replace (s <? 0)%Z with true by (symmetry; apply Z.ltb_lt; lia).
      destruct (z <? 0)%Z eqn:F1; [apply Z.ltb_lt in F1|apply Z.ltb_ge in F1].
      - destruct (z + Z.of_nat n <? 0)%Z eqn:F2; [lia|apply Z.ltb_ge in F2; lia].
      - destruct (Z.of_nat n <=? z)%Z eqn:F2; lia. }
    destruct (b' <? a')%Z eqn:F; [|cbn in Hi; lia]. apply Z.ltb_lt in F.
    assert (Q0 : (0 <= (a' - b' - 1) / - s)%Z) by (apply Z.div_pos; lia).
    assert (Q : (- s * ((a' - b' - 1) / - s) <= a' - b' - 1)%Z) by (apply Z.mul_div_le; lia).
    assert (Hi' : (Z.of_nat i <= (a' - b' - 1) / - s)%Z) by lia.
    assert (M : (Z.of_nat i * - s <= ((a' - b' - 1) / - s) * - s)%Z) by (apply Z.mul_le_mono_nonneg_r; lia).
    assert (0 <= Z.of_nat i * - s)%Z by (apply Z.mul_nonneg_nonneg; lia).
    lia.
  - apply Z.ltb_ge in Es.
    assert (Ha : (0 <= a')%Z).
    { unfold a', clamp. destruct a as [z|]; [|lia]. replace (s <? 0)%Z with false by (symmetry; apply Z.ltb_ge; lia).
      destruct (z <? 0)%Z eqn:F1; [apply Z.ltb_lt in F1|apply Z.ltb_ge in F1].
      - destruct (z + Z.of_nat n <? 0)%Z eqn:F2; [lia|apply Z.ltb_ge in F2; lia].
      - destruct (Z.of_nat n <=? z)%Z eqn:F2; lia. }
    assert (Hb : (b' <= Z.of_nat n)%Z).
    { unfold b', clamp. destruct b as [z|]; [|lia]. replace (s <? 0)%Z with false by (symmetry; apply Z.ltb_ge; lia).
      destruct (z <? 0)%Z eqn:F1; [apply Z.ltb_lt in F1|apply Z.ltb_ge in F1].
      - destruct (z + Z.of_nat n <? 0)%Z eqn:F2; lia.
      - destruct (Z.of_nat n <=? z)%Z eqn:F2; [lia|apply Z.leb_gt in F2; lia]. }
    destruct (a' <? b')%Z eqn:F; [|cbn in Hi; lia]. apply Z.ltb_lt in F.
    assert (Q0 : (0 <= (b' - a' - 1) / s)%Z) by (apply Z.div_pos; lia).
    assert (Q : (s * ((b' - a' - 1) / s) <= b' - a' - 1)%Z) by (apply Z.mul_div_le; lia).
    assert (Hi' : (Z.of_nat i <= (b' - a' - 1) / s)%Z) by lia.
    assert (M : (Z.of_nat i * s <= ((b' - a' - 1) / s) * s)%Z) by (apply Z.mul_le_mono_nonneg_r; lia).
    assert (0 <= Z.of_nat i * s)%Z by (apply Z.mul_nonneg_nonneg; lia).
    lia.
Qed.

Lemma resolve_bound : forall n idx ks, resolve n idx = Ok ks -> Forall (fun k => k < n) ks.
Proof.
  intros n [bs|zs|a b s] ks H; cbn [resolve] in H.
  - destruct (Nat.eqb_spec (len bs) n) as [E|E]; [|discriminate]. inversion H; subst.
    eapply Forall_impl; [|apply true_positions_bound]. intros; cbn beta in *; lia.
  - now apply norm_ints_bound in H.
  - now apply slice_bound in H.
Qed.

Lemma resolve_not_ub : forall n idx, resolve n idx <> UB.
Proof.
  intros n [bs|zs|a b s]; cbn [resolve].
  - destruct (Nat.eqb _ _); discriminate.
  - apply norm_ints_not_ub.
  - unfold slice_indices. destruct (s =? 0)%Z; discriminate.
Qed.

(* ---------------- pick ---------------- *)

Lemma pick_length : forall {A} (l : list A) ks, Forall (fun k => k < len l) ks -> len (pick l ks) = len ks.
Proof.
  induction ks as [|k t IH]; intros H; [reflexivity|]. inversion H; subst. cbn [pick].
  destruct (nth_error l k) eqn:E; [|apply nth_error_None in E; lia]. cbn. now rewrite IH.
Qed.

Lemma pick_nth : forall {A} (l : list A) ks a k, Forall (fun k => k < len l) ks ->
  nth_error ks a = Some k -> nth_error (pick l ks) a = nth_error l k.
Proof.
  induction ks as [|k' t IH]; intros a k H E; [now destruct a|]. inversion H; subst. cbn [pick].
  destruct (nth_error l k') eqn:F; [|apply nth_error_None in F; lia].
  destruct a as [|a]; cbn in E |- *; [now inversion E; subst|now apply IH].
Qed.

Lemma pick_map : forall {A B} (f : A -> B) l ks, pick (map f l) ks = map f (pick l ks).
Proof.
  induction ks as [|k t IH]; [reflexivity|]. cbn [pick]. rewrite nth_error_map.
  destruct (nth_error l k); cbn; [now rewrite IH|exact IH].
Qed.

Lemma pick_true_positions : forall {A} bs (pre l : list A), len bs = len l ->
  pick (pre ++ l) (true_positions (len pre) bs) = mask bs l.
Proof.
  induction bs as [|b t IH]; intros pre l E; [now destruct l|].
  destruct l as [|x l]; [discriminate|]. cbn in E.
  assert (T : pick (pre ++ x :: l) (true_positions (S (len pre)) t) = mask t l).
  { replace (pre ++ x :: l) with ((pre ++ [x]) ++ l) by now rewrite <- app_assoc.
    replace (S (len pre)) with (len (pre ++ [x])) by (rewrite app_length; cbn; lia). apply IH. lia. }
  cbn [true_positions mask]. destruct b; [|exact T]. cbn [pick].
  rewrite nth_error_app2, Nat.sub_diag by lia. cbn. now rewrite T.
Qed.

Lemma pick_mask : forall {A} bs (l : list A), len bs = len l -> pick l (true_positions 0 bs) = mask bs l.
Proof. intros. exact (pick_true_positions bs [] l H). Qed.

(* ---------------- columns ---------------- *)

Definition ceq (j : nat) (h : Z) (e : nat * Z) : bool := Nat.eqb (fst e) j && (snd e =? h)%Z.

Lemma countb_app : forall {A} (p : A -> bool) l r, countb p (l ++ r) = countb p l + countb p r.
Proof. intros. unfold countb. now rewrite filter_app, app_length. Qed.

Lemma countb_ext : forall {A} (p q : A -> bool) l, (forall x, In x l -> p x = q x) -> countb p l = countb q l.
Proof. intros. unfold countb. f_equal. now apply filter_ext_in. Qed.

Lemma countb_map : forall {A B} (f : A -> B) p l, countb p (map f l) = countb (fun x => p (f x)) l.
Proof. induction l as [|x l IH]; [reflexivity|]. unfold countb in *. cbn. destruct (p (f x)); cbn; now rewrite IH. Qed.

Lemma countb_cons : forall {A} (p : A -> bool) x l, countb p (x :: l) = (if p x then 1 else 0) + countb p l.
Proof. intros. unfold countb. cbn. now destruct (p x). Qed.

Lemma countb_false : forall {A} (l : list A), countb (fun _ => false) l = 0.
Proof. induction l; [reflexivity|]. rewrite countb_cons. exact IHl. Qed.

Lemma count_positions : forall ks i c b,
  countb (fun k => Nat.eqb k b) (positions_of i c ks)
  = (if i <=? b then match nth_error ks (b - i) with Some k => if Nat.eqb k c then 1 else 0 | None => 0 end else 0).
Proof.
  induction ks as [|k t IH]; intros i c b; cbn [positions_of].
  - destruct (i <=? b); [|reflexivity]. now destruct (b - i).
  - assert (E : countb (fun k => Nat.eqb k b) (if Nat.eqb k c then i :: positions_of (S i) c t else positions_of (S i) c t)
       = (if Nat.eqb k c then if Nat.eqb i b then 1 else 0 else 0) + countb (fun k => Nat.eqb k b) (positions_of (S i) c t)).
    { destruct (Nat.eqb k c); [now rewrite countb_cons|reflexivity]. }
    rewrite E, IH. clear E. destruct (Nat.leb_spec i b) as [L|L].
    + destruct (Nat.eqb_spec i b) as [->|N].
      * rewrite Nat.sub_diag. cbn [nth_error]. replace (S b <=? b) with false by (symmetry; apply Nat.leb_gt; lia).
        destruct (Nat.eqb k c); lia.
      * replace (S i <=? b) with true by (symmetry; apply Nat.leb_le; lia).
        replace (b - i) with (S (b - S i)) by lia. cbn [nth_error]. destruct (Nat.eqb k c); lia.
    + replace (S i <=? b) with false by (symmetry; apply Nat.leb_gt; lia).
      replace (Nat.eqb i b) with false by (symmetry; apply Nat.eqb_neq; lia). destruct (Nat.eqb k c); lia.
Qed.

Lemma count_columns : forall ks row b kb h, nth_error ks b = Some kb ->
  countb (ceq b h) (row_columns ks row) = countb (ceq kb h) row.
Proof.
  intros ks row b kb h E. induction row as [|[c h'] t IH]; [reflexivity|].
  unfold row_columns. cbn [flat_map]. rewrite countb_app, countb_cons. fold (row_columns ks t). rewrite IH. f_equal.
  rewrite countb_map. cbn [fst snd]. unfold ceq. cbn [fst snd].
  destruct (h' =? h)%Z.
  - rewrite (countb_ext _ (fun k => Nat.eqb k b)) by (intros; apply andb_true_r).
    rewrite count_positions. cbn [Nat.leb]. rewrite Nat.sub_0_r, E, andb_true_r. now rewrite Nat.eqb_sym.
  - rewrite (countb_ext _ (fun _ => false)) by (intros; apply andb_false_r). rewrite countb_false, andb_false_r. reflexivity.
Qed.

Lemma positions_bound : forall ks i c, Forall (fun k => k < i + len ks) (positions_of i c ks).
Proof.
  induction ks as [|k t IH]; intros i c; cbn [positions_of]; [constructor|].
  assert (T : Forall (fun j => j < i + len (k :: t)) (positions_of (S i) c t)).
  { eapply Forall_impl; [|apply (IH (S i))]. cbn [Datatypes.length]. intros; cbn beta in *; lia. }
  destruct (Nat.eqb k c); [|exact T]. constructor; [cbn; lia|exact T].
Qed.

(** A matrix between [n] sites with ids that are not negative *)
Definition csr_ok (n : nat) (m : csr) : Prop :=
  len (c_rows m) = n /\ c_cols m = n /\ (forall r e, In r (c_rows m) -> In e r -> fst e < n /\ (0 <= snd e)%Z).

Definition csr_slice (ks : list nat) (m : csr) : csr :=
  {| c_rows := map (row_columns ks) (pick (c_rows m) ks); c_cols := len ks |}.

Lemma row_columns_in : forall ks row e, In e (row_columns ks row) ->
  fst e < len ks /\ exists c, In (c, snd e) row.
Proof.
  intros ks row e H. apply in_flat_map in H. destruct H as [[c h] [Hi H]]. apply in_map_iff in H.
  destruct H as [k [<- Hk]]. cbn [fst snd] in *. split.
  - pose proof (positions_bound ks 0 c) as B. rewrite Forall_forall in B. apply B in Hk. lia.
  - now exists c.
Qed.

Lemma pick_in : forall {A} (l : list A) ks x, In x (pick l ks) -> In x l.
Proof.
  induction ks as [|k t IH]; intros x H; [easy|]. cbn [pick] in H.
  destruct (nth_error l k) eqn:E; [|now apply IH]. destruct H as [<-|H]; [now apply nth_error_In in E|now apply IH].
Qed.

Lemma drop_id : forall drop row, (forall e, In e row -> snd e <> 0%Z) -> scipy_drop drop row = row.
Proof.
  intros [|] row H; [|reflexivity]. cbn [scipy_drop].
  induction row as [|e t IH]; [reflexivity|]. cbn [filter].
  destruct (snd e =? 0)%Z eqn:E; cbn.
  - apply Z.eqb_eq in E. exfalso. now apply (H e); [left|].
  - f_equal. apply IH. intros x Hx. apply H. now right.
Qed.

Lemma row_columns_map : forall ks f row,
  row_columns ks (map (fun e => (fst e, f (snd e))) row) = map (fun e => (fst e, f (snd e))) (row_columns ks row).
Proof.
  intros ks f row. induction row as [|e t IH]; [reflexivity|]. cbn [map].
  unfold row_columns in *. cbn [flat_map]. rewrite IH, map_app. cbn [fst snd]. f_equal. rewrite map_map. apply map_ext. reflexivity.
Qed.

Lemma slice_csr_eq : forall drop n m idx, csr_ok n m ->
  slice_csr drop m idx = omap (fun ks => csr_slice ks m) (resolve n idx).
Proof.
  intros drop n m idx [L [C I]]. unfold slice_csr, scipy_rows, scipy_cols, map_data. cbn [c_rows c_cols].
  rewrite map_length, L. destruct (resolve n idx) as [ks| |] eqn:R; try reflexivity. cbn [omap obind c_cols c_rows].
  rewrite C, R. cbn [omap obind c_cols c_rows]. f_equal. unfold csr_slice. f_equal.
  rewrite !map_map, pick_map, map_map. apply map_ext_in. intros r Hr. apply pick_in in Hr.
  rewrite (drop_id drop (map (fun e : nat * Z => (fst e, (snd e + 1)%Z)) r)).
  2: { intros e He. apply in_map_iff in He. destruct He as [e' [<- He']]. destruct (I r e' Hr He'). cbn. lia. }
  rewrite (row_columns_map ks (fun h => (h + 1)%Z)), drop_id.
  2: { intros e He. apply in_map_iff in He. destruct He as [e' [<- He']]. apply row_columns_in in He'.
       destruct He' as [_ [c Hc]]. destruct (I r _ Hr Hc) as [_ P]. cbn in P |- *. lia. }
  rewrite map_map. cbn [fst snd]. rewrite <- (map_id (row_columns ks r)) at 2. apply map_ext. intros [c h]. cbn. f_equal. lia.
Qed.

Lemma csr_slice_ok : forall n m ks, csr_ok n m -> Forall (fun k => k < n) ks -> csr_ok (len ks) (csr_slice ks m).
Proof.
  intros n m ks [L [C I]] B. split; [|split]; cbn [csr_slice c_rows c_cols].
  - rewrite map_length. apply pick_length. now rewrite L.
  - reflexivity.
  - intros r e Hr He. apply in_map_iff in Hr. destruct Hr as [r' [<- Hr']]. apply pick_in in Hr'.
    apply row_columns_in in He. destruct He as [A [c Hc]]. destruct (I _ _ Hr' Hc). now split.
Qed.

(** How often the bond of the id [h] from [i] to [j] is stored *)
Definition mult (m : csr) (i j : nat) (h : Z) : nat := countb (ceq j h) (nth i (c_rows m) []).

Lemma csr_slice_mult : forall n m ks a b ka kb h, csr_ok n m -> Forall (fun k => k < n) ks ->
  nth_error ks a = Some ka -> nth_error ks b = Some kb -> mult (csr_slice ks m) a b h = mult m ka kb h.
Proof.
  intros n m ks a b ka kb h [L [C I]] B Ea Eb. unfold mult. cbn [csr_slice c_rows].
  assert (Ha : ka < n) by (rewrite Forall_forall in B; apply B; eapply nth_error_In; eauto).
  rewrite (nth_error_nth (map (row_columns ks) (pick (c_rows m) ks)) a [] (x := row_columns ks (nth ka (c_rows m) []))).
  - now apply count_columns.
  - rewrite nth_error_map, (pick_nth _ _ _ ka) by (rewrite ?L; auto).
    rewrite (nth_error_nth' (c_rows m) []) by lia. reflexivity.
Qed.

(* ---------------- a mask relabels ---------------- *)

(** The new number of a kept site: how many kept sites come before it *)
Definition rank (bs : list bool) (i : nat) : nat := countb (fun b => b) (firstn i bs).

Lemma positions_true : forall bs i p c, i <= c ->
  positions_of p c (true_positions i bs)
  = if nth (c - i) bs false then [p + rank bs (c - i)] else [].
Proof.
  induction bs as [|b t IH]; intros i p c L; cbn [true_positions].
  - cbn. now destruct (c - i).
  - destruct (Nat.eq_dec i c) as [->|N].
    + rewrite Nat.sub_diag. cbn [nth].
      assert (T : forall q, positions_of q c (true_positions (S c) t) = []).
      { intros q. pose proof (true_positions_bound t (S c)) as B. revert q.
        induction (true_positions (S c) t) as [|k r IHr]; intros q; [reflexivity|]. inversion B; subst. cbn [positions_of].
        replace (Nat.eqb k c) with false by (symmetry; apply Nat.eqb_neq; lia). now apply IHr. }
      destruct b; [|apply T]. cbn [positions_of]. rewrite Nat.eqb_refl, T. unfold rank. cbn. now rewrite Nat.add_0_r.
    + replace (c - i) with (S (c - S i)) by lia. cbn [nth]. unfold rank. cbn [firstn]. rewrite countb_cons.
      destruct b.
      * cbn [positions_of]. replace (Nat.eqb i c) with false by (symmetry; apply Nat.eqb_neq; lia).
        rewrite IH by lia. unfold rank. destruct (nth (c - S i) t false); [|reflexivity]. f_equal. lia.
      * rewrite IH by lia. unfold rank. destruct (nth (c - S i) t false); reflexivity.
Qed.

Lemma row_columns_mask : forall bs row,
  row_columns (true_positions 0 bs) row
  = map (fun e => (rank bs (fst e), snd e)) (filter (fun e => nth (fst e) bs false) row).
Proof.
  intros bs row. induction row as [|[c h] t IH]; [reflexivity|].
  unfold row_columns in *. cbn [flat_map filter fst snd]. rewrite IH, (positions_true bs 0 0 c) by lia.
  rewrite Nat.sub_0_r. destruct (nth c bs false); reflexivity.
Qed.

(** All stored bonds, row after row *)
Fixpoint bonds_from (i : nat) (rows : list (list (nat * Z))) : list (nat * nat * Z) :=
  match rows with [] => [] | r :: t => map (fun e => (i, fst e, snd e)) r ++ bonds_from (S i) t end.

Definition bonds (m : csr) : list (nat * nat * Z) := bonds_from 0 (c_rows m).

Definition kept (bs : list bool) (e : nat * nat * Z) : bool := nth (fst (fst e)) bs false && nth (snd (fst e)) bs false.
Definition relabel (bs : list bool) (e : nat * nat * Z) : nat * nat * Z := (rank bs (fst (fst e)), rank bs (snd (fst e)), snd e).

Lemma filter_map_comm : forall {A B} (f : A -> B) p l, filter p (map f l) = map f (filter (fun x => p (f x)) l).
Proof. induction l as [|x l IH]; [reflexivity|]. cbn. destruct (p (f x)); cbn; now rewrite IH. Qed.

Lemma bonds_mask_gen : forall full rows bs pre, full = pre ++ bs -> len bs = len rows ->
  bonds_from (rank full (len pre)) (map (row_columns (true_positions 0 full)) (mask bs rows))
  = map (relabel full) (filter (kept full) (bonds_from (len pre) rows)).
Proof.
  intros full rows. induction rows as [|r t IH]; intros bs pre E L; destruct bs as [|b bs]; try discriminate; [reflexivity|].
  cbn [Datatypes.length] in L.
  assert (E' : full = (pre ++ [b]) ++ bs) by now rewrite <- app_assoc.
  specialize (IH bs (pre ++ [b]) E' ltac:(lia)). rewrite app_length in IH. cbn [Datatypes.length] in IH.
  replace (len pre + 1) with (S (len pre)) in IH by lia.
  assert (N : nth (len pre) full false = b) by (rewrite E, app_nth2, Nat.sub_diag by lia; reflexivity).
  assert (R : rank full (S (len pre)) = rank full (len pre) + (if b then 1 else 0)).
  { unfold rank. rewrite E. clear. induction pre as [|x pre IH]; cbn [app Datatypes.length].
    - cbn [firstn]. rewrite countb_cons. change (countb (fun x : bool => x) []) with 0. destruct b; reflexivity.
    - cbn [firstn]. rewrite !countb_cons. cbn [firstn] in IH. rewrite IH. destruct x, b; lia. }
  cbn [bonds_from mask]. rewrite filter_app, map_app.
  rewrite filter_map_comm, map_map. destruct b.
  - cbn [map bonds_from]. f_equal.
    + rewrite row_columns_mask, map_map. unfold kept, relabel. cbn [fst snd]. rewrite N. reflexivity.
    + rewrite <- IH. f_equal. lia.
  - replace (filter _ r) with (@nil (nat * Z)).
    2: { symmetry. clear -N. induction r as [|e r IH]; [reflexivity|]. cbn. unfold kept at 1. cbn [fst snd]. rewrite N. exact IH. }
    cbn [map app]. rewrite <- IH. f_equal. lia.
Qed.

Lemma bonds_mask : forall n m bs, csr_ok n m -> len bs = n ->
  bonds (csr_slice (true_positions 0 bs) m) = map (relabel bs) (filter (kept bs) (bonds m)).
Proof.
  intros n m bs [L _] E. unfold bonds. cbn [csr_slice c_rows].
  rewrite pick_mask by lia. exact (bonds_mask_gen bs (c_rows m) bs [] eq_refl ltac:(lia)).
Qed.
