(* Proofs about file names, saving and loading *)
From Coq Require Import String Ascii.
From Verif Require Import Base SaveLoad.
Local Notation len := Datatypes.length.
Local Open Scope list_scope.

Definition noslash (s : chars) : Prop := ~ In slash s.

Lemma chars_eqb_eq : forall a b, chars_eqb a b = true <-> a = b.
Proof. intros. unfold chars_eqb. destruct (list_eq_dec ascii_dec a b); split; congruence. Qed.

Lemma split_noslash : forall s acc, noslash s -> split_from acc s = [acc ++ s].
Proof.
  induction s as [|c s IH]; intros acc H; cbn; [now rewrite app_nil_r|].
  destruct (ascii_dec c slash) as [->|n]; [exfalso; apply H; now left|].
  rewrite IH by (intros X; apply H; now right). now rewrite <- app_assoc.
Qed.

Lemma split_slash : forall s t acc, noslash s -> split_from acc (s ++ slash :: t) = (acc ++ s) :: split_from [] t.
Proof.
  induction s as [|c s IH]; intros t acc H; cbn.
  - now rewrite app_nil_r.
  - destruct (ascii_dec c slash) as [->|n]; [exfalso; apply H; now left|].
    rewrite IH by (intros X; apply H; now right). now rewrite <- app_assoc.
Qed.

Lemma split_join : forall l, l <> [] -> Forall noslash l -> split (join l) = l.
Proof.
  unfold split. induction l as [|x l IH]; intros H F; [congruence|]. inversion F; subst.
  destruct l as [|y l].
  - cbn [join]. now rewrite split_noslash.
  - change (join (x :: y :: l)) with (x ++ slash :: join (y :: l)). rewrite split_slash by assumption.
    rewrite IH by (congruence || assumption). reflexivity.
Qed.

Lemma split_parts : forall s acc, noslash acc -> Forall noslash (split_from acc s).
Proof.
  induction s as [|c s IH]; intros acc H; cbn; [now repeat constructor|].
  destruct (ascii_dec c slash) as [->|n].
  - constructor; [exact H|]. apply IH. intros [].
  - apply IH. intros X. apply in_app_or in X. destruct X as [X|[X|[]]]; [now apply H|congruence].
Qed.

Definition good (p : path) : Prop :=
  pa_parts p <> [] /\ Forall noslash (pa_parts p) /\ Forall (fun x => part_ok x = true) (pa_parts p).

Lemma part_ok_nonempty : forall x, part_ok x = true -> x <> [].
Proof. intros x H ->. discriminate. Qed.

Lemma join_head : forall (x : chars) (l : list chars), x <> [] -> exists c t, join (x :: l) = c :: t /\ In c x.
Proof.
  intros [|c x] l H; [congruence|]. destruct l; cbn; eexists; eexists; (split; [reflexivity|now left]).
Qed.

Lemma filter_all : forall {A} (f : A -> bool) l, Forall (fun x => f x = true) l -> filter f l = l.
Proof. induction 1 as [|x l E _ IH]; cbn; [|rewrite E, IH]; reflexivity. Qed.

Lemma str_path_form : forall p, good p -> str_path p = (if pa_root p then [slash] else []) ++ join (pa_parts p).
Proof.
  intros [r l] (H & _ & K). unfold str_path. cbn [pa_root pa_parts] in *. destruct r; [reflexivity|].
  destruct l as [|x l]; [congruence|]. inversion K; subst.
  destruct (join_head x l) as (c & t & E & _); [now apply part_ok_nonempty|]. change ([] ++ join (x :: l)) with (join (x :: l)). rewrite E. reflexivity.
Qed.

Lemma split_str : forall p, good p -> split (str_path p) = (if pa_root p then [[]] else []) ++ pa_parts p.
Proof.
  intros p G. rewrite str_path_form by assumption. destruct G as (H & F & K). destruct (pa_root p); cbn [app].
  - unfold split. change (slash :: join (pa_parts p)) with ([] ++ slash :: join (pa_parts p)).
    rewrite split_slash by (intros []). cbn [app]. f_equal. now apply split_join.
  - now apply split_join.
Qed.

Lemma to_path_str : forall p, good p -> to_path (str_path p) = p.
Proof.
  intros p G. unfold to_path. rewrite split_str by assumption.
  assert (E : absolute (str_path p) = pa_root p).
  { rewrite str_path_form by assumption. destruct G as (H & F & K). destruct (pa_root p); cbn [app]; [reflexivity|].
    destruct (pa_parts p) as [|x l]; [congruence|]. inversion K; inversion F; subst.
    destruct (join_head x l) as (c & t & -> & I); [now apply part_ok_nonempty|]. cbn.
    destruct (ascii_dec c slash) as [->|]; [now exfalso|reflexivity]. }
  rewrite E. destruct G as (H & F & K). destruct p as [r l]. cbn [pa_root pa_parts] in *. f_equal.
  destruct r; cbn [app filter part_ok]; now apply filter_all.
Qed.

Lemma last_app_ne : forall {A} (a b : list A) d, b <> [] -> last (a ++ b) d = last b d.
Proof.
  intros A a b d H. induction a as [|x a IH]; [reflexivity|]. cbn. rewrite IH.
  destruct (a ++ b) eqn:E; [|reflexivity]. apply app_eq_nil in E. destruct E. congruence.
Qed.

Lemma last_In' : forall {A} (l : list A) d, l <> [] -> In (last l d) l.
Proof.
  intros A l d H. destruct (exists_last H) as (a & x & ->). rewrite last_app_ne by congruence. cbn. apply in_or_app. right. now left.
Qed.

Lemma dir_only_str : forall p, good p -> dir_only (str_path p) = false.
Proof.
  intros p G. unfold dir_only. rewrite split_str by assumption. destruct G as (H & F & K).
  rewrite last_app_ne by assumption. rewrite Forall_forall in K. rewrite (K _ (last_In' _ _ H)). reflexivity.
Qed.

Lemma str_nonempty : forall p, good p -> chars_eqb (str_path p) [] = false.
Proof.
  intros p G. destruct (chars_eqb (str_path p) []) eqn:E; [|reflexivity]. apply chars_eqb_eq in E.
  pose proof (split_str p G) as X. rewrite E in X. cbn in X. destruct G as (H & F & K).
  destruct (pa_root p); cbn in X.
  - injection X as X. congruence.
  - rewrite <- X in K. inversion K. discriminate.
Qed.

Lemma to_path_good : forall s, pa_parts (to_path s) <> [] -> good (to_path s).
Proof.
  intros s H. unfold to_path in *. cbn in *. split; [exact H|]. split.
  - apply Forall_forall. intros x X. apply filter_In in X. destruct X as [X _].
    pose proof (split_parts s [] (fun X => X)) as Q. rewrite Forall_forall in Q. now apply Q.
  - apply Forall_forall. intros x X. apply filter_In in X. apply X.
Qed.

(** A name has an extension when there is a dot with something before it, and after it something
    without another dot. *)
Definition has_ext (n : chars) : Prop :=
  exists a b, n = a ++ dot :: b /\ a <> [] /\ b <> [] /\ ~ In dot b.

Lemma rfind_none : forall s i f, ~ In dot s -> rfind_from i s f = f.
Proof.
  induction s as [|c s IH]; intros i f H; cbn; [reflexivity|].
  destruct (ascii_dec c dot) as [->|]; [exfalso; apply H; now left|]. apply IH. intros X. apply H. now right.
Qed.
Lemma rfind_split : forall a b i f, ~ In dot b -> rfind_from i (a ++ dot :: b) f = Some (i + len a).
Proof.
  induction a as [|c a IH]; intros b i f H; cbn [app rfind_from].
  - destruct (ascii_dec dot dot); [|congruence]. rewrite rfind_none by assumption. cbn. now rewrite Nat.add_0_r.
  - rewrite IH by assumption. cbn. f_equal. lia.
Qed.
Lemma last_dot : forall s : chars, In dot s -> exists a b, s = a ++ dot :: b /\ ~ In dot b.
Proof.
  induction s as [|c s IH]; intros H; [now exfalso|].
  destruct (in_dec ascii_dec dot s) as [I|N].
  - destruct (IH I) as (a & b & -> & Nb). exists (c :: a), b. split; [reflexivity|assumption].
  - destruct H as [->|H]; [|contradiction]. exists [], s. split; [reflexivity|assumption].
Qed.

Lemma suffix_spec : forall p, suffix p <> [] <-> has_ext (pa_name p).
Proof.
  intros p. unfold suffix. set (n := pa_name p). clearbody n. destruct (in_dec ascii_dec dot n) as [I|N].
  - destruct (last_dot n I) as (a & b & -> & Nb). rewrite rfind_split by assumption. cbn [Nat.add].
    rewrite app_length. cbn [Datatypes.length].
    split.
    + intros H. exists a, b. destruct (0 <? len a) eqn:E1; cbn [andb] in H; [|congruence].
      destruct (len a <? len a + S (len b) - 1) eqn:E2; [|congruence].
      apply Nat.ltb_lt in E1, E2. repeat split; auto; intros ->; cbn in *; lia.
    + intros (a' & b' & E & Ha & Hb & Nb').
      assert (Ea : a = a' /\ b = b').
      { pose proof (rfind_split a b 0 None Nb) as X. pose proof (rfind_split a' b' 0 None Nb') as Y. rewrite <- E in Y.
        rewrite X in Y. injection Y as Y. 
        assert (Q : firstn (len a) (a ++ dot :: b) = firstn (len a') (a' ++ dot :: b')) by now rewrite E, Y.
        rewrite !firstn_app, !Nat.sub_diag, !firstn_all in Q.
        cbn in Q. rewrite !app_nil_r in Q. subst a'. apply app_inv_head in E. split; congruence. }
      destruct Ea as [<- <-]. destruct a as [|c a]; [congruence|]. destruct b as [|e b]; [congruence|].
      cbn [Datatypes.length]. replace (0 <? S (len a)) with true by (symmetry; apply Nat.ltb_lt; lia).
      replace (S (len a) <? S (len a) + S (S (len b)) - 1) with true by (symmetry; apply Nat.ltb_lt; lia). cbn [andb].
      rewrite skipn_app. change (S (len a)) with (len (c :: a)). rewrite skipn_all, Nat.sub_diag. discriminate.
  - rewrite rfind_none by assumption. split; [congruence|]. intros (a & b & E & _). exfalso. apply N. rewrite E.
    apply in_or_app. right. now left.
Qed.

Lemma has_ext_pbz : forall n, n <> [] -> has_ext (n ++ pbz).
Proof.
  intros n H. exists n, (list_ascii_of_string "pbz"). repeat split; auto; [discriminate|].
  cbn. intros X. repeat destruct X as [X|X]; try discriminate; exact X.
Qed.

(** The name that is written *)
Lemma with_pbz_spec : forall s q, with_pbz (to_path s) = Ok q ->
  good q /\ good (to_path s) /\ pa_root q = pa_root (to_path s) /\
  exists dirs n, pa_parts (to_path s) = dirs ++ [n] /\ pa_parts q = dirs ++ [n ++ pbz].
Proof.
  intros s q H. unfold with_pbz in H. destruct (pa_parts (to_path s)) as [|x l] eqn:E; [discriminate|].
  assert (G : good (to_path s)) by (apply to_path_good; rewrite E; discriminate).
  assert (Hq : q = Path (pa_root (to_path s)) (removelast (pa_parts (to_path s)) ++ [pa_name (to_path s) ++ pbz]))
    by (rewrite E; congruence).
  clear H. subst q.
  assert (Hne : pa_parts (to_path s) <> []) by (rewrite E; discriminate).
  destruct (exists_last Hne) as (dirs & n & En). 
  assert (Nn : pa_name (to_path s) = n) by (unfold pa_name; rewrite En, last_app_ne by discriminate; reflexivity).
  rewrite Nn, En, removelast_last. cbn [pa_root pa_parts].
  destruct G as (G1 & G2 & G3). rewrite En in G2, G3. apply Forall_app in G2, G3. destruct G2 as [G2 G2n], G3 as [G3 G3n].
  inversion G2n; inversion G3n; subst.
  assert (Ne : pa_name (to_path s) <> []) by now apply part_ok_nonempty.
  split; [|split; [split; [exact G1|rewrite En; split; apply Forall_app; split; assumption]|split; [reflexivity|]]].
  - unfold good. cbn [pa_parts]. split; [|split].
    + intros X. apply app_eq_nil in X. destruct X. discriminate.
    + apply Forall_app. split; [assumption|]. constructor; [|constructor]. intros X. apply in_app_or in X.
      destruct X as [X|X]; [contradiction|]. cbn in X. repeat destruct X as [X|X]; try discriminate; exact X.
    + apply Forall_app. split; [assumption|]. constructor; [|constructor]. unfold part_ok.
      set (m := pa_name (to_path s)) in *. destruct (chars_eqb (m ++ pbz) []) eqn:E1.
      { apply chars_eqb_eq in E1. apply app_eq_nil in E1. destruct E1. discriminate. }
      destruct (chars_eqb (m ++ pbz) [dot]) eqn:E2; [|reflexivity]. apply chars_eqb_eq in E2.
      apply (f_equal (@Datatypes.length _)) in E2. rewrite app_length in E2. change (len pbz) with 4 in E2. change (len [dot]) with 1 in E2. lia.
  - exists dirs, (pa_name (to_path s)). split; [congruence|reflexivity].
Qed.

Section FilesPr.
  Variable content : Type.
  Local Notation fs := (fs content).

  Lemma path_eqb_eq : forall a b, path_eqb a b = true <-> a = b.
  Proof.
    intros [r l] [r' l']. unfold path_eqb. cbn [pa_root pa_parts].
    destruct (list_eq_dec (list_eq_dec ascii_dec) l l') as [->|n]; rewrite andb_true_iff, eqb_true_iff.
    - split; [intros [-> _]; reflexivity|intros [= ->]; split; reflexivity].
    - split; [intros [_ ?]; discriminate|intros [= _ ?]; contradiction].
  Qed.

  Lemma write_spec : forall (d d' : fs) s c, write content d s c = Ok d' ->
    read content d' s = Ok c /\ exists_ content d' s = true /\ d' (to_path s) = Some (File c) /\
    forall p, p <> to_path s -> d' p = d p.
  Proof.
    intros d d' s c H. unfold write in H. destruct (chars_eqb s [] || dir_only s) eqn:E; [discriminate|].
    assert (Q : d' = fun p => if path_eqb p (to_path s) then Some (File c) else d p)
      by (destruct (d (to_path s)) as [[|]|]; congruence).
    assert (Es : d' (to_path s) = Some (File c)).
    { rewrite Q. destruct (path_eqb (to_path s) (to_path s)) eqn:X; [reflexivity|].
      assert (path_eqb (to_path s) (to_path s) = true) by now apply path_eqb_eq. congruence. }
    apply orb_false_iff in E. destruct E as [E1 E2].
    split; [|split; [|split; [exact Es|]]].
    - unfold read. rewrite E1, E2, Es. reflexivity.
    - unfold exists_. rewrite E1, E2, Es. reflexivity.
    - intros p N. rewrite Q. destruct (path_eqb p (to_path s)) eqn:X; [|reflexivity]. apply path_eqb_eq in X. contradiction.
  Qed.

  (** The file that a name is saved in *)
  Definition target (f : chars) (p : path) : Prop :=
    pa_root p = pa_root (to_path f) /\
    exists dirs n, pa_parts (to_path f) = dirs ++ [n] /\
      ((has_ext n /\ pa_parts p = dirs ++ [n]) \/ (~ has_ext n /\ pa_parts p = dirs ++ [n ++ pbz])).

  Lemma add_extension_cases : forall f g, add_extension f = Ok g ->
    (has_ext (pa_name (to_path f)) /\ g = f) \/
    (~ has_ext (pa_name (to_path f)) /\ exists q, with_pbz (to_path f) = Ok q /\ g = str_path q).
  Proof.
    intros f g H. unfold add_extension in H. destruct (suffix (to_path f)) as [|c t] eqn:E.
    - right. split.
      + intros X. apply suffix_spec in X. congruence.
      + destruct (with_pbz (to_path f)) as [q| |]; try discriminate. exists q. split; [reflexivity|]. cbn in H. congruence.
    - left. split; [|congruence]. apply suffix_spec. rewrite E. discriminate.
  Qed.

  Lemma has_ext_name : forall f, has_ext (pa_name (to_path f)) -> pa_parts (to_path f) <> [].
  Proof. intros f (a & b & E & _) X. unfold pa_name in E. rewrite X in E. cbn in E. destruct a; discriminate. Qed.

  Lemma target_of : forall f g, add_extension f = Ok g -> target f (to_path g).
  Proof.
    intros f g H. destruct (add_extension_cases f g H) as [[X ->]|(X & q & Eq & ->)].
    - split; [reflexivity|]. destruct (exists_last (has_ext_name f X)) as (dirs & n & E). exists dirs, n.
      split; [exact E|]. left. split; [|exact E]. unfold pa_name in X. rewrite E, last_app_ne in X by discriminate. exact X.
    - destruct (with_pbz_spec f q Eq) as (Gq & Gf & Er & dirs & n & E1 & E2). rewrite to_path_str by assumption.
      split; [exact Er|]. exists dirs, n. split; [exact E1|]. right. split; [|exact E2].
      unfold pa_name in X. rewrite E1, last_app_ne in X by discriminate. exact X.
  Qed.

  Lemma ext_ext : forall f g, add_extension f = Ok g -> add_extension g = Ok g.
  Proof.
    intros f g H. destruct (add_extension_cases f g H) as [[X ->]|(X & q & Eq & ->)]; [exact H|].
    destruct (with_pbz_spec f q Eq) as (Gq & Gf & Er & dirs & n & E1 & E2).
    assert (Y : suffix (to_path (str_path q)) <> []).
    { apply suffix_spec. rewrite to_path_str by assumption. unfold pa_name. rewrite E2, last_app_ne by discriminate.
      cbn [last]. apply has_ext_pbz. destruct Gf as (_ & _ & G). rewrite E1 in G. apply Forall_app in G.
      destruct G as [_ G]. inversion G. now apply part_ok_nonempty. }
    unfold add_extension. destruct (suffix (to_path (str_path q))); [congruence|reflexivity].
  Qed.

  Lemma save_spec : forall (d d' : fs) c f, save content d c f = Ok d' ->
    exists p, target f p /\ d' p = Some (File c) /\ forall q, q <> p -> d' q = d q.
  Proof.
    intros d d' c f H. unfold save in H. destruct (add_extension f) as [g| |] eqn:E; try discriminate. cbn in H.
    destruct (write_spec _ _ _ _ H) as (_ & _ & W & Wn). exists (to_path g). split; [now apply target_of|]. auto.
  Qed.

  Lemma save_load_ext : forall (d d' : fs) c f g, save content d c f = Ok d' -> add_extension f = Ok g ->
    load content d' g = Ok c.
  Proof.
    intros d d' c f g H E. unfold save in H. rewrite E in H. cbn in H. unfold load. rewrite (ext_ext f g E). cbn.
    destruct (write_spec _ _ _ _ H) as (W & We & _). rewrite We. cbn. exact W.
  Qed.

  Lemma save_load : forall (d d' : fs) c f, save content d c f = Ok d' ->
    has_ext (pa_name (to_path f)) \/ exists_ content d f = false -> load content d' f = Ok c.
  Proof.
    intros d d' c f H X. unfold save in H. destruct (add_extension f) as [g| |] eqn:E; try discriminate. cbn in H.
    destruct (write_spec _ _ _ _ H) as (W & We & Wp & Wn). unfold load. rewrite E. cbn. rewrite We.
    destruct (add_extension_cases f g E) as [[Y ->]|(Y & q & Eq & ->)].
    - rewrite We. cbn. exact W.
    - destruct X as [X|X]; [contradiction|].
      destruct (with_pbz_spec f q Eq) as (Gq & Gf & Er & dirs & n & E1 & E2). rewrite to_path_str in Wn by assumption.
      assert (N : exists_ content d' f = false).
      { unfold exists_ in *. rewrite Wn; [exact X|]. intros Q. rewrite Q, E2 in E1. apply app_inj_tail in E1. destruct E1 as [_ E1].
        apply (f_equal (@Datatypes.length _)) in E1. rewrite app_length in E1. change (len pbz) with 4 in E1. lia. }
      rewrite N. cbn. exact W.
  Qed.
End FilesPr.

Section PickleablePr.
  Variable V : Type.

  Lemma set_item_new : forall (d : attrs V) n v, ~ In n (map fst d) -> set_item V d n v = d ++ [(n, v)].
  Proof.
    intros d n v H. unfold set_item. destruct (existsb _ d) eqn:E; [|reflexivity].
    apply existsb_exists in E. destruct E as (p & I & E). apply chars_eqb_eq in E. exfalso. apply H. rewrite <- E.
    now apply in_map.
  Qed.
  Lemma update_new : forall (n a : attrs V), NoDup (map fst (a ++ n)) -> update V a n = a ++ n.
  Proof.
    induction n as [|[k v] n IH]; intros a H; [symmetry; apply app_nil_r|].
    unfold update. cbn [fold_left fst snd]. rewrite set_item_new.
    - change (update V (a ++ [(k, v)]) n = a ++ (k, v) :: n). rewrite IH; rewrite <- app_assoc; [reflexivity|exact H].
    - rewrite map_app in H. cbn in H. apply NoDup_remove_2 in H. intros X. apply H. apply in_or_app. now left.
  Qed.

  Lemma chars_eqb_refl : forall n, chars_eqb n n = true.
  Proof. intros n. now apply chars_eqb_eq. Qed.
  Lemma lookup_cons : forall p (d : attrs V) n, lookup V (p :: d) n = if chars_eqb (fst p) n then Some (snd p) else lookup V d n.
  Proof. intros p d n. unfold lookup. cbn [find]. now destruct (chars_eqb (fst p) n). Qed.
  Lemma lookup_absent : forall (d : attrs V) n, existsb (fun p => chars_eqb (fst p) n) d = false -> lookup V d n = None.
  Proof.
    induction d as [|p d IH]; intros n H; [reflexivity|]. cbn [existsb] in H. apply Bool.orb_false_iff in H. destruct H as [A B].
    rewrite lookup_cons, A. now apply IH.
  Qed.
  Lemma lookup_set : forall (d : attrs V) n v m, lookup V (set_item V d n v) m = if chars_eqb n m then Some v else lookup V d m.
  Proof.
    intros d n v m. unfold set_item. destruct (existsb _ d) eqn:E.
    - induction d as [|p d IH]; [discriminate|]. cbn [map]. rewrite !lookup_cons. cbn [existsb] in E.
      destruct (chars_eqb (fst p) n) eqn:P; cbn [fst snd].
      + apply chars_eqb_eq in P. rewrite P. destruct (chars_eqb n m) eqn:M; [reflexivity|].
        clear IH E. induction d as [|q d IH]; [reflexivity|]. cbn [map]. rewrite !lookup_cons. destruct (chars_eqb (fst q) n) eqn:Q; cbn [fst snd].
        * apply chars_eqb_eq in Q. rewrite Q, M. exact IH.
        * now rewrite IH.
      + rewrite IH by exact E. destruct (chars_eqb (fst p) m) eqn:M; [|reflexivity]. destruct (chars_eqb n m) eqn:M2; [|reflexivity].
        apply chars_eqb_eq in M, M2. rewrite M, M2, chars_eqb_refl in P. discriminate.
    - destruct (chars_eqb n m) eqn:M.
      + apply chars_eqb_eq in M. subst m. apply lookup_absent in E. revert E. clear. induction d as [|p d IH]; intros E.
        * cbn [app]. rewrite lookup_cons. cbn [fst snd]. now rewrite chars_eqb_refl.
        * cbn [app]. rewrite lookup_cons in *. destruct (chars_eqb (fst p) n); [discriminate|]. now apply IH.
      + clear E. induction d as [|p d IH]; cbn [app]; rewrite !lookup_cons; [cbn [fst]; now rewrite M|]. now rewrite IH.
  Qed.
  Lemma lookup_in : forall (d : attrs V) n v, lookup V d n = Some v -> In n (map fst d).
  Proof.
    induction d as [|p d IH]; intros n v H; [discriminate|]. rewrite lookup_cons in H. destruct (chars_eqb (fst p) n) eqn:E.
    - left. now apply chars_eqb_eq.
    - right. eapply IH, H.
  Qed.
  Lemma lookup_update : forall (d a : attrs V) m, NoDup (map fst d) ->
    lookup V (update V a d) m = match lookup V d m with Some v => Some v | None => lookup V a m end.
  Proof.
    induction d as [|p d IH]; intros a m H; [reflexivity|]. cbn [map] in H. inversion H as [|x l NI ND]; subst.
    change (lookup V (update V (set_item V a (fst p) (snd p)) d) m = match lookup V (p :: d) m with Some v => Some v | None => lookup V a m end).
    rewrite (IH _ m ND), lookup_set, lookup_cons. destruct (chars_eqb (fst p) m) eqn:M; [|reflexivity].
    apply chars_eqb_eq in M. destruct (lookup V d m) eqn:L; [|reflexivity]. exfalso. apply NI. rewrite M. eapply lookup_in, L.
  Qed.
  (** the two loops over the saved properties *)
  Lemma names_spec : forall props (pr : attrs V) acc l,
    ofold (fun acc p => match fst p with [a; _] => Ok (if existsb (chars_eqb [a]) props then acc ++ [[a]] else acc) | _ => Throw end) pr acc = Ok l ->
    (forall n v, In (n, v) pr -> exists a b, n = [a; b]) /\
    (l = [] <-> acc = [] /\ forall a b v, In ([a; b], v) pr -> ~ In [a] props).
  Proof.
    intros props. induction pr as [|[n v] pr IH]; intros acc l H.
    - injection H as <-. split; [intros ? ? []|]. split; [intros ->; split; [reflexivity|intros ? ? ? []]|tauto].
    - cbn [ofold fst] in H. destruct n as [|a [|b [|]]]; try discriminate. cbn [obind] in H. specialize (IH _ _ H). destruct IH as [I1 I2]. split.
      + intros m w [Q|Q]; [injection Q as <- _; eauto|eauto].
      + rewrite I2. destruct (existsb (chars_eqb [a]) props) eqn:E.
        * apply existsb_exists in E. destruct E as (q & Iq & Eq). apply chars_eqb_eq in Eq. subst q. split.
          -- intros [Q _]. destruct acc; discriminate.
          -- intros [_ Q]. exfalso. exact (Q a b v (or_introl eq_refl) Iq).
        * split; intros [-> Q]; (split; [reflexivity|]).
          -- intros c d w [R|R]; [injection R as <- _ _|eapply Q, R]. intros Ip. assert (X : existsb (chars_eqb [a]) props = true) by (apply existsb_exists; exists [a]; split; [exact Ip|apply chars_eqb_refl]). congruence.
          -- intros c d w R. eapply Q. right. exact R.
  Qed.
  Lemma names_ok : forall props (pr : attrs V) acc, (forall n v, In (n, v) pr -> exists a b, n = [a; b]) ->
    exists l, ofold (fun acc p => match fst p with [a; _] => Ok (if existsb (chars_eqb [a]) props then acc ++ [[a]] else acc) | _ => Throw end) pr acc = Ok l.
  Proof.
    intros props. induction pr as [|[n v] pr IH]; intros acc H; [eexists; reflexivity|].
    destruct (H n v (or_introl eq_refl)) as (a & b & ->). cbn [ofold fst obind]. apply IH. intros m w I. eapply H. right. exact I.
  Qed.
End PickleablePr.
