(* Proofs for Polygon, Line, FreeformShape and cell positions. *)
From Verif Require Import Base Foundation FoundationSpec FoundationFacts Geometry GeometrySpec.
From Coq Require Import Lqa Permutation.
Local Open Scope Q_scope.

Lemma qgt_lt : forall a b, qgt a b = true <-> b < a.
Proof.
  intros a b. unfold qgt. rewrite negb_true_iff. split.
  - intros H. destruct (Qlt_le_dec b a) as [L|L]; [exact L|]. apply Qle_bool_iff in L. congruence.
  - intros H. destruct (Qle_bool a b) eqn:E; [|reflexivity]. apply Qle_bool_iff in E. lra.
Qed.
Lemma qgt_le : forall a b, qgt a b = false <-> a <= b.
Proof. intros a b. unfold qgt. rewrite negb_false_iff. apply Qle_bool_iff. Qed.

Lemma qabs_wd : forall a b, a == b -> qabs a == qabs b.
Proof.
  intros [n d] [m e] H. unfold Qeq, qabs in *. cbn [Qnum Qden] in *.
  rewrite <- (Z.abs_eq (Zpos d)), <- (Z.abs_eq (Zpos e)) by lia. rewrite <- !Z.abs_mul. congruence.
Qed.
Lemma qabs_opp : forall a, qabs (- a) == qabs a.
Proof. intros [n d]. unfold qabs, Qopp. cbn [Qnum Qden]. rewrite Z.abs_opp. reflexivity. Qed.
Lemma qabs_nonneg : forall a, 0 <= qabs a.
Proof. intros [n d]. unfold qabs, Qle. cbn [Qnum Qden]. lia. Qed.
Lemma qabs_zero : forall a, a == 0 -> qabs a == 0.
Proof. intros a H. rewrite (qabs_wd a 0 H). reflexivity. Qed.

Lemma Qle_bool_wd : forall a b c d, a == c -> b == d -> Qle_bool a b = Qle_bool c d.
Proof. intros a b c d H1 H2. apply Bool.eq_iff_eq_true. rewrite !Qle_bool_iff. rewrite H1, H2. reflexivity. Qed.

Lemma approx_sym : forall x y, approx_equal x y = approx_equal y x.
Proof.
  intros x y. unfold approx_equal.
  assert (D : qabs (x - y) == qabs (y - x)) by (rewrite <- qabs_opp; apply qabs_wd; ring).
  assert (S : qabs (x + y) == qabs (y + x)) by (apply qabs_wd; ring).
  rewrite (Qle_bool_wd _ _ _ _ D (Qmult_comp _ _ (Qeq_refl float_epsilon) _ _ S)), (Qle_bool_wd _ _ _ _ D (Qeq_refl float_min)). reflexivity.
Qed.

Lemma approx_refl : forall x y, x == y -> approx_equal x y = true.
Proof.
  intros x y H. unfold approx_equal. apply orb_true_iff. right. apply Qle_bool_iff.
  rewrite (qabs_zero (x - y)) by (rewrite H; ring). unfold float_min, Qle. cbn. lia.
Qed.

(** The test made for one side. *)
Definition bcross (p : vertex) (side : vertex * vertex) : bool :=
  let '((x1, y1), (x2, y2)) := side in
  negb (approx_equal y1 y2) && (negb (Bool.eqb (qgt y1 (snd p)) (qgt y2 (snd p))) &&
  qgt (fst p) ((x2 - x1) / (y2 - y1) * (snd p - y1) + x1)).

Lemma polygon_step_xor : forall p b s, polygon_step p b s = xorb b (bcross p s).
Proof.
  intros p b [[x1 y1] [x2 y2]]. unfold polygon_step, bcross. destruct (approx_equal y1 y2); cbn [negb andb].
  - rewrite xorb_false_r. reflexivity.
  - destruct (negb _ && _); cbn; [rewrite xorb_true_r|rewrite xorb_false_r]; reflexivity.
Qed.

Definition parity (l : list bool) : bool := fold_right xorb false l.
Lemma parity_app : forall a b, parity (a ++ b) = xorb (parity a) (parity b).
Proof. induction a as [|x a IH]; intros b; [symmetry; apply xorb_false_l|]. cbn [app parity fold_right]. fold (parity (a ++ b)) (parity a). rewrite IH, xorb_assoc. reflexivity. Qed.
Lemma parity_odd : forall l, parity l = Nat.odd (count_true l).
Proof.
  induction l as [|b l IH]; [reflexivity|]. unfold count_true in *. cbn [parity map fold_right]. rewrite sum_list_cons.
  fold (parity l). rewrite IH. destruct b; cbn [b2n].
  - rewrite Nat.odd_succ, <- Nat.negb_odd. destruct (Nat.odd _); reflexivity.
  - destruct (Nat.odd _); reflexivity.
Qed.

Lemma fold_xor : forall p l b, fold_left (polygon_step p) l b = xorb b (parity (map (bcross p) l)).
Proof.
  induction l as [|s l IH]; intros b; cbn; [rewrite xorb_false_r; reflexivity|].
  rewrite IH, polygon_step_xor. cbn. rewrite xorb_assoc. reflexivity.
Qed.

Lemma within_parity : forall vs p, within_polygon vs p = parity (map (bcross p) (polygon_sides (last vs (0, 0)) vs)).
Proof. intros. unfold within_polygon. rewrite fold_xor. destruct (parity _); reflexivity. Qed.

Lemma sides_combine : forall vs prev, polygon_sides prev vs = combine vs (prev :: vs).
Proof. induction vs as [|v vs IH]; intros prev; cbn; [reflexivity|]. rewrite IH. reflexivity. Qed.

Lemma last_dflt : forall (A : Type) (l : list A) x y, l <> [] -> last l x = last l y.
Proof. induction l as [|a l IH]; intros x y H; [congruence|]. destruct l; [reflexivity|]. cbn [last] in *. apply IH. discriminate. Qed.
Lemma last_cons : forall (A : Type) (l : list A) v d, last (v :: l) d = last l v.
Proof. intros A [|a l] v d; [reflexivity|]. cbn [last]. apply (last_dflt _ (a :: l)). discriminate. Qed.

Lemma sides_app : forall a b prev, polygon_sides prev (a ++ b) = polygon_sides prev a ++ polygon_sides (last a prev) b.
Proof.
  induction a as [|v a IH]; intros b prev; [reflexivity|]. cbn [app polygon_sides]. rewrite IH, last_cons. reflexivity.
Qed.

Lemma last_app : forall (A : Type) (a b : list A) x, b <> [] -> last (a ++ b) x = last b x.
Proof.
  induction a as [|y a IH]; intros b x H; [reflexivity|]. cbn [app]. rewrite last_cons, IH by auto. apply last_dflt; auto.
Qed.

Theorem polygon_rotate : forall a b p, within_polygon (a ++ b) p = within_polygon (b ++ a) p.
Proof.
  intros a b p. destruct a as [|a0 a]; [rewrite app_nil_r; reflexivity|]. destruct b as [|b0 b]; [rewrite app_nil_r; reflexivity|].
  set (A := a0 :: a). set (B := b0 :: b). assert (HA : A <> []) by discriminate. assert (HB : B <> []) by discriminate.
  rewrite !within_parity, !sides_app, !map_app, !parity_app. rewrite !last_app by auto.
  rewrite (last_dflt _ A (last B (0, 0)) (0, 0)) by auto. rewrite (last_dflt _ B (last A (0, 0)) (0, 0)) by auto. apply xorb_comm.
Qed.

(** The point of a side at height [y]. *)
Lemma side_point : forall x1 y1 x2 y2 y, ~ y1 == y2 ->
  (x2 - x1) / (y2 - y1) * (y - y1) + x1 == (x1 - x2) / (y1 - y2) * (y - y2) + x2.
Proof. intros. field. split; lra. Qed.

Lemma qgt_wd : forall a b c d, a == c -> b == d -> qgt a b = qgt c d.
Proof. intros. unfold qgt. f_equal. apply Qle_bool_wd; auto. Qed.

Lemma bcross_swap : forall p v w, bcross p (v, w) = bcross p (w, v).
Proof.
  intros p [x1 y1] [x2 y2]. unfold bcross. rewrite (approx_sym y1 y2). destruct (approx_equal y2 y1) eqn:E; [reflexivity|]. cbn [negb andb].
  assert (H : ~ y1 == y2) by (intros H; rewrite approx_refl in E; [discriminate|symmetry; exact H]).
  rewrite (qgt_wd _ _ _ _ (Qeq_refl (fst p)) (side_point x1 y1 x2 y2 (snd p) H)).
  f_equal. f_equal. destruct (qgt y1 (snd p)), (qgt y2 (snd p)); reflexivity.
Qed.

Lemma rev_sides : forall p t v w,
  parity (map (bcross p) (polygon_sides w (rev t))) = xorb (bcross p (v, hd w t)) (xorb (parity (map (bcross p) (polygon_sides v t))) (bcross p (w, last t v))).
Proof.
  intros p. induction t as [|a t IH]; intros v w.
  - cbn [rev polygon_sides map parity fold_right hd last]. rewrite (bcross_swap p v w). destruct (bcross p (w, v)); reflexivity.
  - cbn [rev hd polygon_sides map parity fold_right]. rewrite sides_app, map_app, parity_app. cbn [polygon_sides map parity fold_right].
    rewrite (IH a w). fold (parity (map (bcross p) (polygon_sides a t))).
    assert (L1 : last (rev t) w = hd w t).
    { destruct t as [|b t]; [reflexivity|]. cbn [rev hd]. rewrite last_app by discriminate. reflexivity. }
    rewrite L1. assert (L2 : last (a :: t) v = last t a) by apply last_cons.
    rewrite L2. rewrite (bcross_swap p v a). 
    generalize (bcross p (a, hd w t)), (parity (map (bcross p) (polygon_sides a t))), (bcross p (w, last t a)), (bcross p (a, v)).
    intros [] [] [] []; reflexivity.
Qed.

Theorem polygon_reverse : forall vs p, within_polygon (rev vs) p = within_polygon vs p.
Proof.
  intros [|v t] p; [reflexivity|]. rewrite !within_parity. cbn [rev]. rewrite last_app by discriminate. cbn [last].
  rewrite sides_app, map_app, parity_app. rewrite (rev_sides p t v v). cbn [polygon_sides map parity fold_right].
  assert (L1 : last (rev t) v = hd v t).
  { destruct t as [|b t]; [reflexivity|]. cbn [rev hd]. rewrite last_app by discriminate. reflexivity. }
  rewrite L1. assert (L2 : match t with [] => v | _ :: _ => last t (0, 0) end = last t v) by (destruct t; [reflexivity|]; apply last_dflt; discriminate).
  rewrite L2. fold (parity (map (bcross p) (polygon_sides v t))).
  generalize (bcross p (v, hd v t)), (parity (map (bcross p) (polygon_sides v t))), (bcross p (v, last t v)).
  intros [] [] []; reflexivity.
Qed.

(** The side test is the geometric one unless the side is a sliver. *)
Lemma bcross_hits : forall p v w, (approx_equal (snd v) (snd w) = true -> snd v == snd w) -> (bcross p (v, w) = true <-> ray_hits p (v, w)).
Proof.
  intros [px py] [x1 y1] [x2 y2] NS. unfold bcross, ray_hits, above in *. cbn [fst snd] in *. split.
  - intros H. apply andb_true_iff in H. destruct H as [H1 H]. apply andb_true_iff in H. destruct H as [H2 H3].
    apply negb_true_iff in H1, H2. apply qgt_lt in H3.
    assert (D : ~ y1 == y2) by (intros D; rewrite approx_refl in H1; [discriminate|exact D]).
    split.
    + destruct (qgt y1 py) eqn:E1, (qgt y2 py) eqn:E2; try discriminate.
      * left. split; [apply qgt_lt; exact E1|]. apply qgt_le in E2. lra.
      * right. split; [apply qgt_le in E1; lra|apply qgt_lt; exact E2].
    + exists ((py - y1) / (y2 - y1)).
      assert (E : (1 - (py - y1) / (y2 - y1)) * x1 + (py - y1) / (y2 - y1) * x2 == (x2 - x1) / (y2 - y1) * (py - y1) + x1) by (field; lra).
      assert (E' : (1 - (py - y1) / (y2 - y1)) * y1 + (py - y1) / (y2 - y1) * y2 == py) by (field; lra).
      rewrite E, E'. split; [|split; [reflexivity|exact H3]].
      destruct (qgt y1 py) eqn:E1, (qgt y2 py) eqn:E2; try discriminate.
      * apply qgt_lt in E1. apply qgt_le in E2. assert (EQ : (py - y1) / (y2 - y1) == (y1 - py) / (y1 - y2)) by (field; lra). rewrite EQ.
        split; [apply Qle_shift_div_l; lra|apply Qle_shift_div_r; lra].
      * apply qgt_lt in E2. apply qgt_le in E1. split; [apply Qle_shift_div_l; lra|apply Qle_shift_div_r; lra].
  - intros (HA & t & Ht & Ey & Ex).
    assert (D : ~ y1 == y2) by (intros D; destruct HA as [[A B]|[A B]]; lra).
    destruct (approx_equal y1 y2) eqn:EA; [exfalso; apply D; apply NS; reflexivity|]. cbn [negb andb].
    apply andb_true_iff. split.
    + destruct HA as [[A B]|[A B]].
      * rewrite (proj2 (qgt_lt y1 py) A). rewrite (proj2 (qgt_le y2 py)) by lra. reflexivity.
      * rewrite (proj2 (qgt_lt y2 py) B). rewrite (proj2 (qgt_le y1 py)) by lra. reflexivity.
    + apply qgt_lt. assert (T : t == (py - y1) / (y2 - y1)) by (rewrite <- Ey; field; lra).
      assert (X : (x2 - x1) / (y2 - y1) * (py - y1) + x1 == (1 - t) * x1 + t * x2) by (rewrite T; field; lra).
      rewrite X. exact Ex.
Qed.

Theorem polygon_even_odd : forall vs p, no_sliver vs ->
  exists marks, Forall2 (fun m side => m = true <-> ray_hits p side) marks (closed_sides vs) /\
    within_polygon vs p = Nat.odd (count_true marks).
Proof.
  intros vs p NS. exists (map (bcross p) (closed_sides vs)). split.
  - unfold no_sliver in NS. revert NS. generalize (closed_sides vs). induction l as [|[v w] l IH]; intros NS; cbn; constructor.
    + apply bcross_hits. apply NS. left. reflexivity.
    + apply IH. intros. apply NS; auto. right. auto.
  - rewrite within_parity, sides_combine, parity_odd. reflexivity.
Qed.

Theorem polygon_rectangle : forall x0 y0 x1 y1 p, x0 < x1 -> y0 < y1 -> approx_equal y0 y1 = false ->
  within_polygon [(x0, y0); (x1, y0); (x1, y1); (x0, y1)] p = true <-> (x0 < fst p <= x1 /\ y0 <= snd p < y1).
Proof.
  intros x0 y0 x1 y1 [px py] HX HY HA. rewrite within_parity. cbn [last polygon_sides map parity fold_right fst snd].
  unfold bcross. cbn [fst snd]. rewrite HA, (approx_sym y1 y0), HA. rewrite !(approx_refl y0 y0), !(approx_refl y1 y1) by reflexivity. cbn [negb andb].
  assert (S0 : (x0 - x0) / (y1 - y0) * (py - y0) + x0 == x0) by (field; lra).
  assert (S1 : (x1 - x1) / (y0 - y1) * (py - y1) + x1 == x1) by (field; lra).
  rewrite (qgt_wd _ _ _ _ (Qeq_refl px) S0), (qgt_wd _ _ _ _ (Qeq_refl px) S1).
  destruct (qgt y0 py) eqn:E0, (qgt y1 py) eqn:E1, (qgt px x0) eqn:F0, (qgt px x1) eqn:F1; cbn;
    rewrite ?qgt_lt, ?qgt_le in *; (split; [intros; try discriminate; lra|intros [[A B] [C D]]; try reflexivity; exfalso; lra]).
Qed.

(* ------------------------------------------------------------------ a polygon lies in its bounding box *)
(** Height test along a closed list of vertices changes an even number of times. *)
Definition crosses_y (p : vertex) (s : vertex * vertex) : bool := xorb (qgt (snd (fst s)) (snd p)) (qgt (snd (snd s)) (snd p)).

Lemma crosses_path : forall p vs prev, parity (map (crosses_y p) (polygon_sides prev vs)) = xorb (qgt (snd prev) (snd p)) (qgt (snd (last vs prev)) (snd p)).
Proof.
  induction vs as [|v vs IH]; intros prev; cbn [polygon_sides map parity fold_right]; [cbn; rewrite xorb_nilpotent; reflexivity|].
  fold (parity (map (crosses_y p) (polygon_sides v vs))). rewrite IH. unfold crosses_y at 1. cbn [fst snd].
  assert (L : last (v :: vs) prev = last vs v) by apply last_cons.
  rewrite L. destruct (qgt (snd v) (snd p)), (qgt (snd prev) (snd p)), (qgt (snd (last vs v)) (snd p)); reflexivity.
Qed.

Lemma crosses_closed : forall p vs, parity (map (crosses_y p) (polygon_sides (last vs (0, 0)) vs)) = false.
Proof.
  intros p [|v vs]; [reflexivity|]. rewrite crosses_path.
  assert (E : forall d, last (v :: vs) d = last (v :: vs) (0, 0)) by (intros; apply last_dflt; discriminate).
  generalize E. generalize (last (v :: vs) (0, 0)). intros e E'. pose proof (E' e) as X.
  unfold vertex in *. rewrite X. apply xorb_nilpotent.
Qed.

Lemma parity_ex : forall A (f : A -> bool) l, parity (map f l) = true -> exists x, In x l /\ f x = true.
Proof.
  induction l as [|a l IH]; cbn; intros H; [discriminate|]. destruct (f a) eqn:E; [exists a; auto|].
  rewrite xorb_false_l in H. destruct (IH H) as (x & Hx & Ex). eauto.
Qed.

Lemma parity_diff : forall A (f g : A -> bool) l, xorb (parity (map f l)) (parity (map g l)) = parity (map (fun x => xorb (f x) (g x)) l).
Proof.
  induction l as [|a l IH]; cbn; [reflexivity|]. fold (parity (map f l)) (parity (map g l)) (parity (map (fun x => xorb (f x) (g x)) l)).
  rewrite <- IH. destruct (f a), (g a), (parity (map f l)), (parity (map g l)); reflexivity.
Qed.

Lemma sides_in : forall vs prev v w, In (v, w) (polygon_sides prev vs) -> In v vs /\ (w = prev \/ In w vs).
Proof.
  induction vs as [|a vs IH]; intros prev v w H; [contradiction|]. destruct H as [H|H].
  - injection H as <- <-. split; [left; auto|left; auto].
  - destruct (IH _ _ _ H) as [A [-> | B]]; split; try (right; assumption); right; [left; reflexivity|right; assumption].
Qed.

Theorem polygon_in_box : forall vs p a b, no_sliver vs -> within_polygon vs p = true ->
  spans (fun v => a * fst v + b * snd v) vs (a * fst p + b * snd p).
Proof.
  intros vs [px py] a b NS H. rewrite within_parity in H. 
  set (sides := polygon_sides (last vs (0, 0)) vs) in *.
  assert (HS : forall v w, In (v, w) sides -> In v vs /\ In w vs).
  { intros v w Hin. pose proof (sides_in _ _ _ _ Hin) as [A [-> | B]]; split; auto.
    destruct vs as [|v0 vs]; [contradiction|]. clear. revert v0. induction vs as [|v1 vs IH]; intros v0; [left; reflexivity|].
    right. apply (IH v1). }
  assert (NS' : forall v w, In (v, w) sides -> approx_equal (snd v) (snd w) = true -> snd v == snd w).
  { intros v w Hin. apply NS. unfold closed_sides. rewrite <- sides_combine. exact Hin. }
  destruct (parity_ex _ _ _ H) as ([v w] & Hvw & Evw).
  assert (HR : parity (map (fun s => xorb (bcross (px, py) s) (crosses_y (px, py) s)) sides) = true).
  { rewrite <- parity_diff, H. unfold sides. rewrite crosses_closed. reflexivity. }
  destruct (parity_ex _ _ _ HR) as ([v' w'] & Hvw' & Evw').
  destruct (HS _ _ Hvw) as [Iv Iw]. destruct (HS _ _ Hvw') as [Iv' Iw'].
  apply (proj1 (bcross_hits _ v w (NS' v w Hvw))) in Evw. destruct Evw as (_ & t & Ht & Ty & Tx).
  assert (RIGHT : exists t', 0 <= t' <= 1 /\ (1 - t') * snd v' + t' * snd w' == py /\ px <= (1 - t') * fst v' + t' * fst w').
  { pose proof (bcross_hits (px, py) v' w' (NS' v' w' Hvw')) as BH.
    destruct (bcross (px, py) (v', w')) eqn:EB.
    - exfalso. destruct (proj1 BH EB) as (AB & _). unfold crosses_y, above in *. cbn [fst snd] in *.
      destruct (qgt (snd v') py) eqn:E1, (qgt (snd w') py) eqn:E2; cbn in Evw'; try discriminate; rewrite ?qgt_lt, ?qgt_le in *; destruct AB as [[A B]|[A B]]; lra.
    - rewrite xorb_false_l in Evw'. unfold crosses_y in Evw'. cbn [fst snd] in Evw'.
      set (y1 := snd v') in *. set (y2 := snd w') in *.
      assert (D : y1 < py + 0 \/ True) by auto. clear D.
      assert (DD : (py < y1 /\ y2 <= py) \/ (y1 <= py /\ py < y2)).
      { destruct (qgt y1 py) eqn:E1, (qgt y2 py) eqn:E2; cbn in Evw'; try discriminate; rewrite ?qgt_lt, ?qgt_le in *; [left|right]; split; assumption. }
      assert (NE : ~ y1 == y2) by (intros Q; destruct DD as [[A B]|[A B]]; lra).
      exists ((py - y1) / (y2 - y1)).
      assert (E' : (1 - (py - y1) / (y2 - y1)) * y1 + (py - y1) / (y2 - y1) * y2 == py) by (field; lra).
      rewrite E'. assert (T01 : 0 <= (py - y1) / (y2 - y1) <= 1).
      { destruct DD as [[A B]|[A B]].
        - assert (EQ : (py - y1) / (y2 - y1) == (y1 - py) / (y1 - y2)) by (field; lra). rewrite EQ.
          split; [apply Qle_shift_div_l; lra|apply Qle_shift_div_r; lra].
        - split; [apply Qle_shift_div_l; lra|apply Qle_shift_div_r; lra]. }
      split; [exact T01|]. split; [reflexivity|].
      destruct (Qlt_le_dec ((1 - (py - y1) / (y2 - y1)) * fst v' + (py - y1) / (y2 - y1) * fst w') px) as [L|L]; [|exact L].
      exfalso. assert (F : bcross (px, py) (v', w') = true); [|congruence]. apply BH. unfold ray_hits, above. cbn [fst snd]. fold y1 y2. split.
      + destruct DD as [[A B]|[A B]]; [left|right]; split; lra.
      + exists ((py - y1) / (y2 - y1)). split; [exact T01|]. split; [exact E'|exact L]. }
  destruct RIGHT as (t' & Ht' & Ty' & Tx'). cbn [fst snd] in Ty, Tx.
  (* p lies between the points at t and t' of the two sides *)
  set (f := fun v : vertex => a * fst v + b * snd v).
  assert (F1 : (1 - t) * f v + t * f w == a * ((1 - t) * fst v + t * fst w) + b * py) by (unfold f; rewrite <- Ty; ring).
  assert (F2 : (1 - t') * f v' + t' * f w' == a * ((1 - t') * fst v' + t' * fst w') + b * py) by (unfold f; rewrite <- Ty'; ring).
  set (X := (1 - t) * fst v + t * fst w) in *. set (X' := (1 - t') * fst v' + t' * fst w') in *.
  assert (BIG : (f v <= a * px + b * py \/ f w <= a * px + b * py \/ f v' <= a * px + b * py \/ f w' <= a * px + b * py) /\
                (a * px + b * py <= f v \/ a * px + b * py <= f w \/ a * px + b * py <= f v' \/ a * px + b * py <= f w')).
  { set (c := a * px + b * py).
    assert (POS : forall s d e, 0 <= s <= 1 -> 0 < d -> 0 < e -> 0 < (1 - s) * d + s * e).
    { clear. intros s d e Hs Hd He. destruct (Qlt_le_dec 0 s) as [S|S].
      - assert (0 < s * e) by (apply Qmult_lt_0_compat; auto). assert (0 <= (1 - s) * d) by (apply Qmult_le_0_compat; lra). lra.
      - assert (E : s == 0) by lra. rewrite E. lra. }
    assert (LOW : forall s u z k, 0 <= s <= 1 -> (1 - s) * u + s * z <= k -> u <= k \/ z <= k).
    { intros s u z k Hs Hk. destruct (Qlt_le_dec k u) as [A|A]; [|left; exact A]. destruct (Qlt_le_dec k z) as [B|B]; [|right; exact B]. exfalso.
      pose proof (POS s (u - k) (z - k) Hs ltac:(lra) ltac:(lra)) as XP. lra. }
    assert (HIGH : forall s u z k, 0 <= s <= 1 -> k <= (1 - s) * u + s * z -> k <= u \/ k <= z).
    { intros s u z k Hs Hk. destruct (Qlt_le_dec u k) as [A|A]; [|left; exact A]. destruct (Qlt_le_dec z k) as [B|B]; [|right; exact B]. exfalso.
      pose proof (POS s (k - u) (k - z) Hs ltac:(lra) ltac:(lra)) as XP. lra. }
    destruct (Qlt_le_dec a 0) as [A|A].
    - split.
      + destruct (LOW t' (f v') (f w') c Ht'); [rewrite F2; unfold c; nra| |]; tauto.
      + destruct (HIGH t (f v) (f w) c Ht); [rewrite F1; unfold c; nra| |]; tauto.
    - split.
      + destruct (LOW t (f v) (f w) c Ht); [rewrite F1; unfold c; nra| |]; tauto.
      + destruct (HIGH t' (f v') (f w') c Ht'); [rewrite F2; unfold c; nra| |]; tauto. }
  destruct BIG as [LO HI]. unfold spans. cbn [fst snd].
  assert (exists u, In u vs /\ f u <= a * px + b * py) as (u & Hu & Lu) by (destruct LO as [L|[L|[L|L]]]; eauto).
  assert (exists u, In u vs /\ a * px + b * py <= f u) as (u' & Hu' & Lu') by (destruct HI as [L|[L|[L|L]]]; eauto).
  exists u, u'. auto.
Qed.

(* ------------------------------------------------------------------ Freeform *)
Theorem freeform_in_box : forall width center p a b c,
  qx center - (1 # 2) * qx width <= qx p <= qx center + (1 # 2) * qx width ->
  qy center - (1 # 2) * qy width <= qy p <= qy center + (1 # 2) * qy width ->
  qz center - (1 # 2) * qz width <= qz p <= qz center + (1 # 2) * qz width ->
  spans (fun v => a * qx v + b * qy v + c * qz v) (freeform_vertices width center) (a * qx p + b * qy p + c * qz p).
Proof.
  intros [w1 w2 w3] [c1 c2 c3] [p1 p2 p3] a b c. cbn [qx qy qz]. intros H1 H2 H3. unfold spans, freeform_vertices. cbn [qx qy qz].
  set (l1 := c1 - (1 # 2) * w1) in *. set (u1 := c1 + (1 # 2) * w1) in *.
  set (l2 := c2 - (1 # 2) * w2) in *. set (u2 := c2 + (1 # 2) * w2) in *.
  set (l3 := c3 - (1 # 2) * w3) in *. set (u3 := c3 + (1 # 2) * w3) in *.
  assert (ONE : forall a l u p, l <= p <= u -> (a * l <= a * p /\ a * p <= a * u) \/ (a * u <= a * p /\ a * p <= a * l)).
  { clear. intros a l u p H. destruct (Qlt_le_dec a 0); [right|left]; split; nra. }
  destruct (ONE a _ _ _ H1) as [[A1 A2]|[A1 A2]], (ONE b _ _ _ H2) as [[B1 B2]|[B1 B2]], (ONE c _ _ _ H3) as [[C1 C2]|[C1 C2]];
    [exists (Q3 l1 l2 l3), (Q3 u1 u2 u3)|exists (Q3 l1 l2 u3), (Q3 u1 u2 l3)|exists (Q3 l1 u2 l3), (Q3 u1 l2 u3)|exists (Q3 l1 u2 u3), (Q3 u1 l2 l3)
    |exists (Q3 u1 l2 l3), (Q3 l1 u2 u3)|exists (Q3 u1 l2 u3), (Q3 l1 u2 l3)|exists (Q3 u1 u2 l3), (Q3 l1 l2 u3)|exists (Q3 u1 u2 u3), (Q3 l1 l2 l3)];
    (split; [cbn; tauto|split; [cbn; tauto|cbn [qx qy qz]; split; lra]]).
Qed.

(* ------------------------------------------------------------------ Line *)
Lemma dot_zero : forall v, q3dot v v == 0 <-> qx v == 0 /\ qy v == 0 /\ qz v == 0.
Proof.
  intros [x y z]. unfold q3dot. cbn [qx qy qz]. split.
  - intros H. assert (x * x == 0 /\ y * y == 0 /\ z * z == 0) as (A & B & C) by (repeat split; nra).
    repeat split; apply Qmult_integral in A, B, C; tauto.
  - intros (-> & -> & ->). ring.
Qed.

Definition same_point (a b : q3) : Prop := qx a == qx b /\ qy a == qy b /\ qz a == qz b.

Lemma sub_zero : forall a b, q3dot (q3sub a b) (q3sub a b) == 0 <-> same_point a b.
Proof.
  intros a b. rewrite dot_zero. unfold q3sub, same_point. cbn [qx qy qz]. split; intros (A & B & C); repeat split; lra.
Qed.

Theorem line_ok : forall a b c, line_contains a b c = true <->
  (~ same_point a b /\ ~ same_point c a /\ ~ same_point c b /\ 0 <= along a b c <= along a b b).
Proof.
  intros a b c. unfold line_contains, is_acute_angle.
  assert (S1 : forall x y, Qeq_bool (q3dot (q3sub x y) (q3sub x y)) 0 = true <-> same_point x y) by (intros; rewrite Qeq_bool_iff; apply sub_zero).
  assert (E1 : q3dot (q3sub a b) (q3sub c b) == along a b b - along a b c) by (unfold along, q3dot, q3sub; cbn [qx qy qz]; ring).
  assert (E2 : q3dot (q3sub b a) (q3sub c a) == along a b c) by reflexivity.
  assert (SY : same_point a b <-> same_point b a) by (unfold same_point; split; intros (A & B & C); repeat split; lra).
  destruct (Qeq_bool (q3dot (q3sub a b) (q3sub a b)) 0) eqn:F1.
  { cbn [orb andb]. split; [discriminate|]. intros (N & _). apply S1 in F1. tauto. }
  destruct (Qeq_bool (q3dot (q3sub b a) (q3sub b a)) 0) eqn:F2.
  { rewrite andb_false_r. split; [discriminate|]. intros (N & _). apply S1 in F2. tauto. }
  destruct (Qeq_bool (q3dot (q3sub c b) (q3sub c b)) 0) eqn:F3.
  { cbn [orb andb]. split; [discriminate|]. intros (_ & _ & N & _). apply S1 in F3. tauto. }
  destruct (Qeq_bool (q3dot (q3sub c a) (q3sub c a)) 0) eqn:F4.
  { cbn [orb]. rewrite andb_false_r. split; [discriminate|]. intros (_ & N & _). apply S1 in F4. tauto. }
  cbn [orb]. rewrite andb_true_iff, !Qle_bool_iff. rewrite E1, E2.
  assert (N : forall x y, Qeq_bool (q3dot (q3sub x y) (q3sub x y)) 0 = false -> ~ same_point x y) by (intros x y F X; apply S1 in X; congruence).
  split; [intros [A B]|intros (_ & _ & _ & A & B)]; repeat split; auto; lra.
Qed.

(* ------------------------------------------------------------------ cell positions *)
Theorem block_positions : forall P (padd : P -> P -> P) (pscale : Z -> P -> P),
  (forall a b, padd a b = padd b a) -> (forall a b c, padd a (padd b c) = padd (padd a b) c) ->
  (forall m n v, pscale (m + n)%Z v = padd (pscale m v) (pscale n v)) ->
  (forall p v, padd p (pscale 0%Z v) = p) ->
  forall offset lo size vecs (uc : list (usite P)), positive_block size ->
  (0 < length vecs)%nat -> ((length vecs < 2)%nat -> iy size = 1%Z) -> ((length vecs < 3)%nat -> iz size = 1%Z) ->
  exists pos, generate_positions P padd pscale (calc_position P padd pscale offset vecs lo) size vecs uc = Ok pos /\
    length pos = num_block_sites size (length uc) /\
    forall i a u, cell_of size i -> nth_error uc a = Some u ->
      nth_error pos (place size i a) = Some (padd (calc_position P padd pscale offset vecs (add3 lo i)) (u_pos u)).
Proof.
  intros P padd pscale C A D Z0 offset lo size vecs uc Hs H1 H2 H3.
  destruct (positions_facts P padd pscale Z0 (calc_position P padd pscale offset vecs lo) size vecs uc Hs H1 H2 H3) as (pos & E & L & F).
  exists pos. split; [exact E|]. split; [exact L|]. intros i a u Hi Hu. rewrite (F i a u Hi Hu). f_equal. cbv zeta.
  assert (SW : forall x y z, padd (padd x y) z = padd (padd x z) y) by (intros; rewrite <- !A; f_equal; apply C).
  destruct lo as [l1 l2 l3], i as [i1 i2 i3]. unfold calc_position, add3. cbn [ix iy iz].
  destruct vecs as [|v0 [|v1 [|v2 vecs]]]; [cbn in H1; lia| | |]; cbn [combine fold_left nth_error fst snd].
  - rewrite D. rewrite (SW _ (u_pos u)). rewrite A. reflexivity.
  - rewrite !D, !A. rewrite !(SW _ (u_pos u)). f_equal. rewrite !(SW _ _ (pscale i1 v0)). reflexivity.
  - rewrite !D, !A. rewrite !(SW _ (u_pos u)). f_equal. rewrite !(SW _ _ (pscale i1 v0)). rewrite !(SW _ _ (pscale i2 v1)).
    rewrite !(SW _ _ (pscale i3 v2)). reflexivity.
Qed.
