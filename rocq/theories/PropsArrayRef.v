(* C114: arrays keep their type, shape and elements on the way to generic code and to numpy. *)
From Verif Require Import Base ArrayRef.
From Coq Require Import Lia.
Arguments Buffer {A}. Arguments Dense {A}. Arguments Strategy {A}. Arguments MapOf {A}. Arguments Ref {A}. Arguments ND {A}.
Arguments read {A}. Arguments elem1 {A}. Arguments elem2 {A}. Arguments arrayref_dense {A}. Arguments arrayref_vector {A}. Arguments variant {A}. Arguments try_match {A T}. Arguments match2sp {A T}.
Arguments make_vector {A}. Arguments make_matrix {A}. Arguments calc_dos {A T}. Arguments calc_spatial_ldos {A T}. Arguments numpy {A}. Arguments item {A}. Arguments make_strategy {T}.
Arguments bu_type {A}. Arguments bu_cells {A}. Arguments d_data {A}. Arguments d_shape {A}. Arguments d_row_major {A}. Arguments mp_type {A}. Arguments mp_dense {A}.
Arguments st_type {A}. Arguments st_energies {A}. Arguments st_states {A}. Arguments st_rows {A}. Arguments r_data {A}. Arguments r_tag {A}. Arguments nd_shape {A}. Arguments nd_dtype {A}.

(** ** What is meant *)
(** The scalar types of a solver. *)
Definition solver_type (t : ctype) : Prop := In t [Float; CFloat; Double; CDouble].
(** The real type of the same precision. *)
Definition real_of (t : ctype) : ctype := match t with CFloat => Float | CDouble => Double | _ => t end.
Lemma get_real_of : forall t, get_real t = real_of t.
Proof. intros []; reflexivity. Qed.
(** Element (i, j) of the stored object, with the type it was written with. *)
Definition stored1 {A} (d : dense A) (i : nat) : outcome A := elem1 (bu_type (d_data d)) d i.
Definition stored2 {A} (d : dense A) (i j : nat) : outcome A := elem2 (bu_type (d_data d)) d i j.
(** A map shows exactly the elements of a vector. *)
Definition shows_vector {A} (m : map_of A) (t : ctype) (l : list A) : Prop :=
  mp_type m = t /\ d_shape (mp_dense m) = Vector (length l) /\ forall i, i < length l -> exists x, nth_error l i = Some x /\ elem1 (mp_type m) (mp_dense m) i = Ok x.
(** A map shows the columns which a solver wrote one after the other. *)
Definition shows_columns {A} (m : map_of A) (t : ctype) (rows cols : nat) (cells : list A) : Prop :=
  mp_type m = t /\ d_shape (mp_dense m) = Matrix rows cols /\
  forall i j, i < rows -> j < cols -> exists x, nth_error cells (j * rows + i) = Some x /\ elem2 (mp_type m) (mp_dense m) i j = Ok x.
Definition finished {A} (s : strategy A) : Prop := solver_type (st_type s) /\ length (st_states s) = st_rows s * length (st_energies s).

Lemma ctype_eqb_refl : forall t, ctype_eqb t t = true.
Proof. intros [| | | | |s n]; try reflexivity. cbn. rewrite Bool.eqb_reflx, Nat.eqb_refl. reflexivity. Qed.
Lemma read_own : forall {A} (m : buffer A) i x, nth_error (bu_cells m) i = Some x -> read (bu_type m) m i = Ok x.
Proof. intros A m i x H. unfold read. rewrite ctype_eqb_refl. unfold aget. rewrite H. reflexivity. Qed.
Lemma nth_some : forall {A} (l : list A) i, i < length l -> exists x, nth_error l i = Some x.
Proof. intros A l i H. destruct (nth_error l i) as [x|] eqn:E; [eauto|]. apply nth_error_None in E. lia. Qed.

(** ** Solvers *)
(** Whatever its scalar type, the functions which use a solver see its energies and wave functions. *)
Theorem C114_solver : forall {A} (s : strategy A), finished s ->
  (forall T (f : map_of A -> outcome T), exists m, calc_dos f s = f m /\ shows_vector m (real_of (st_type s)) (st_energies s)) /\
  (forall T (f : map_of A -> map_of A -> outcome T), exists m1 m2, calc_spatial_ldos f s = f m1 m2 /\ shows_vector m1 (real_of (st_type s)) (st_energies s) /\
     shows_columns m2 (st_type s) (st_rows s) (length (st_energies s)) (st_states s)).
Proof.
  intros A [t en ps rows] (Ht & Hl). rewrite <- !get_real_of. cbn [st_type st_energies st_states st_rows] in *.
  set (m1 := MapOf (get_real t) (Dense (Buffer (get_real t) en) (Vector (length en)) false)).
  set (m2 := MapOf t (Dense (Buffer t ps) (Matrix rows (length en)) false)).
  assert (V : shows_vector m1 (get_real t) en).
  { split; [reflexivity|]. split; [reflexivity|]. intros i Hi. destruct (nth_some en i Hi) as (x & Hx). exists x. split; [exact Hx|]. unfold elem1. cbn [m1 mp_dense d_shape mp_type d_data].
    destruct (Nat.ltb_spec i (length en)); [|lia]. apply (read_own (Buffer (get_real t) en)). exact Hx. }
  assert (C : shows_columns m2 t rows (length en) ps).
  { split; [reflexivity|]. split; [reflexivity|]. intros i j Hi Hj. assert (B : j * rows + i < length ps) by (rewrite Hl; nia). destruct (nth_some ps _ B) as (x & Hx). exists x. split; [exact Hx|].
    unfold elem2. cbn [m2 mp_dense d_shape mp_type d_data d_row_major]. destruct (Nat.ltb_spec i rows); [|lia]. destruct (Nat.ltb_spec j (length en)); [|lia]. cbn [andb]. apply (read_own (Buffer t ps)). exact Hx. }
  split; intros T f; [exists m1|exists m1, m2]; (split; [|auto]); cbn in Ht; destruct Ht as [<-|[<-|[<-|[<-|[]]]]]; reflexivity.
Qed.
Print Assumptions C114_solver.
(** A strategy is made for the type of the Hamiltonian. *)
Theorem C114_strategy : forall {T} (make : ctype -> T) h, solver_type h -> make_strategy make h = Ok (make h).
Proof. intros T make h H. cbn in H. destruct H as [<-|[<-|[<-|[<-|[]]]]]; reflexivity. Qed.
Print Assumptions C114_strategy.

(** ** Dispatch of any references *)
Lemma tag_eqb_eq : forall s t, tag_eqb s t = true <-> s = t.
Proof. intros [] []; split; intros E; try reflexivity; discriminate E. Qed.
Lemma is_type_iff : forall g t, is_type g t = true <-> get_tag t = Some g.
Proof. intros g t. unfold is_type. destruct (get_tag t) as [g'|]; [rewrite tag_eqb_eq; split; congruence|split; discriminate]. Qed.
(** Different types have different tags. *)
Lemma get_tag_inj : forall s t g, get_tag s = Some g -> get_tag t = Some g -> s = t.
Proof.
  assert (D : forall t g, get_tag t = Some g -> t = dtype_type g).
  { intros t g H. destruct t as [| | | | |[] n]; cbn in H; try (injection H as <-; reflexivity);
      do 9 (destruct n as [|n]; cbn in H; try discriminate H; try (injection H as <-; reflexivity)). }
  intros s t g Hs Ht. rewrite (D _ _ Hs), (D _ _ Ht). reflexivity.
Qed.
(** A match is found exactly if the type is in the list, and it is that type. *)
Theorem C114_match : forall {A T} make (f : map_of A -> outcome T) (r : ref A) t types, get_tag t = Some (r_tag r) ->
  (In t types -> variant types r = Ok r /\ try_match make f r types = f (make t r)) /\ (~ In t types -> variant types r = Throw /\ try_match make f r types = Throw).
Proof.
  intros A T make f r t types Ht. induction types as [|u types IH]; [split; [intros []|intros _; split; reflexivity]|].
  unfold variant in *. cbn [existsb try_match]. destruct (is_type (r_tag r) u) eqn:E.
  - apply is_type_iff in E. pose proof (get_tag_inj _ _ _ Ht E) as <-. split; [intros _; split; reflexivity|]. intros N. exfalso. apply N. left. reflexivity.
  - assert (N : u <> t) by (intros ->; apply is_type_iff in Ht; congruence). cbn [orb]. destruct IH as (I1 & I2). split.
    + intros [H|H]; [congruence|]. apply I1, H.
    + intros H. apply I2. intros G. apply H. right. exact G.
Qed.
Print Assumptions C114_match.
(** Two references are matched exactly if both types are possible and have the same precision. *)
Lemma in_combinations : forall l1 l2 p, In p (combinations l1 l2) <-> In (fst p) l1 /\ In (snd p) l2.
Proof.
  induction l1 as [|t l1 IH]; intros l2 [x y]; cbn [combinations fst snd]; [cbn; intuition|]. rewrite in_app_iff, IH, in_map_iff. cbn [fst snd In]. split.
  - intros [(z & E & Hz)|H]; [injection E as -> ->; auto|intuition].
  - intros ([->|H] & H2); [left; exists y; auto|right; auto].
Qed.
Lemma in_filter_types : forall p l x, In x (filter_types p l) <-> In x l /\ p x = true.
Proof.
  intros p l x. induction l as [|y l IH]; cbn [filter_types]; [cbn; intuition|]. rewrite in_app_iff, IH. cbn [In]. destruct (p y) eqn:E; cbn [In]; [|].
  - split; [intros [[<-|[]]|H]; intuition|]. intros ([->|H] & P); auto.
  - split; [intros [[]|H]; intuition|]. intros ([->|H] & P); [congruence|auto].
Qed.
Lemma try_match2_in : forall {A T} make1 make2 (f : map_of A -> map_of A -> outcome T) (r1 r2 : ref A) t1 t2 types, get_tag t1 = Some (r_tag r1) -> get_tag t2 = Some (r_tag r2) ->
  (In (t1, t2) types -> try_match2 A make1 make2 f r1 r2 types = f (make1 t1 r1) (make2 t2 r2)) /\ (~ In (t1, t2) types -> try_match2 A make1 make2 f r1 r2 types = Throw).
Proof.
  intros A T make1 make2 f r1 r2 t1 t2 types H1 H2. induction types as [|[u1 u2] types IH]; [split; [intros []|reflexivity]|]. cbn [try_match2].
  destruct (is_type (r_tag r1) u1 && is_type (r_tag r2) u2) eqn:E.
  - apply andb_true_iff in E. destruct E as (E1 & E2). apply is_type_iff in E1, E2. pose proof (get_tag_inj _ _ _ H1 E1) as <-. pose proof (get_tag_inj _ _ _ H2 E2) as <-.
    split; [reflexivity|]. intros N. exfalso. apply N. left. reflexivity.
  - assert (N : (u1, u2) <> (t1, t2)). { intros Q. injection Q as -> ->. apply is_type_iff in H1, H2. rewrite H1, H2 in E. discriminate. }
    destruct IH as (I1 & I2). split; [intros [H|H]; [congruence|apply I1, H]|]. intros H. apply I2. intros G. apply H. right. exact G.
Qed.
Lemma ctype_eqb_eq : forall s t, ctype_eqb s t = true <-> s = t.
Proof.
  intros s t. split; [|intros ->; apply ctype_eqb_refl]. destruct s as [| | | | |x m], t as [| | | | |y n]; cbn; intros E; try discriminate E; try reflexivity.
  apply andb_true_iff in E. destruct E as (E1 & E2). apply Bool.eqb_prop in E1. apply Nat.eqb_eq in E2. congruence.
Qed.
Theorem C114_match2 : forall {A T} make1 make2 (f : map_of A -> map_of A -> outcome T) (r1 r2 : ref A) t1 t2 types1 types2, get_tag t1 = Some (r_tag r1) -> get_tag t2 = Some (r_tag r2) ->
  let matches := In t1 types1 /\ In t2 types2 /\ real_of t1 = real_of t2 in
  (matches -> match2sp make1 make2 types1 types2 r1 r2 f = f (make1 t1 r1) (make2 t2 r2)) /\ (~ matches -> match2sp make1 make2 types1 types2 r1 r2 f = Throw).
Proof.
  intros A T make1 make2 f r1 r2 t1 t2 types1 types2 H1 H2 matches. unfold match2sp.
  assert (M : In (t1, t2) (filter_types same_precision (combinations types1 types2)) <-> matches).
  { rewrite in_filter_types, in_combinations. unfold same_precision. cbn [fst snd]. rewrite ctype_eqb_eq, !get_real_of. unfold matches. tauto. }
  destruct (try_match2_in make1 make2 f r1 r2 t1 t2 (filter_types same_precision (combinations types1 types2)) H1 H2) as (I1 & I2). split; intros H; [apply I1, M, H|apply I2; intros G; apply H, M, G].
Qed.
Print Assumptions C114_match2.

(** ** Elements of a matched matrix *)
(** Meant: a matched matrix has the elements of the original one. *)
Definition C114_matrix_claim : Prop := forall A (d : dense A) r rows cols order, arrayref_dense d = Some r -> d_shape d = Matrix rows cols ->
  forall i j, i < rows -> j < cols -> elem2 (bu_type (d_data d)) (mp_dense (make_matrix order (bu_type (d_data d)) r)) i j = stored2 d i j.
(** True if the container has the same order. *)
Theorem C114_matrix_partial : forall A (d : dense A) r rows cols, arrayref_dense d = Some r -> d_shape d = Matrix rows cols ->
  forall i j, elem2 (bu_type (d_data d)) (mp_dense (make_matrix (d_row_major d) (bu_type (d_data d)) r)) i j = stored2 d i j.
Proof.
  intros A [m sh o] r rows cols E S i j. cbn [d_shape d_data d_row_major] in *. subst sh. unfold arrayref_dense, make_ref in E. cbn [d_shape d_data d_row_major] in E.
  destruct (get_tag (bu_type m)); [|discriminate]. injection E as <-. reflexivity.
Qed.
Print Assumptions C114_matrix_partial.
(** A row major matrix as a column major one: the elements are exchanged. *)
Example C114_matrix_example : forall r, arrayref_dense (Dense (Buffer Float [1; 2; 3; 4]) (Matrix 2 2) true) = Some r ->
  elem2 Float (mp_dense (make_matrix false Float r)) 0 1 = Ok 3 /\ stored2 (Dense (Buffer Float [1; 2; 3; 4]) (Matrix 2 2) true) 0 1 = Ok 2.
Proof. intros r E. injection E as <-. split; reflexivity. Qed.
Theorem C114_matrix_refuted : ~ C114_matrix_claim.
Proof.
  intros H. specialize (H nat (Dense (Buffer Float [1; 2; 3; 4]) (Matrix 2 2) true) _ 2 2 false eq_refl eq_refl 0 1). specialize (H ltac:(lia) ltac:(lia)). discriminate H.
Qed.
Print Assumptions C114_matrix_refuted.

(** ** numpy *)
(** An Eigen object arrives in numpy with its type, shape and elements, in both orders. *)
Theorem C114_numpy : forall A (d : dense A) r, arrayref_dense d = Some r ->
  get_tag (bu_type (d_data d)) = Some (nd_dtype (numpy r)) /\
  match d_shape d with
  | Vector n => nd_shape (numpy r) = [n] /\ forall i, i < n -> item (numpy r) [i] = stored1 d i
  | Matrix rows cols => nd_shape (numpy r) = [rows; cols] /\ forall i j, i < rows -> j < cols -> item (numpy r) [i; j] = stored2 d i j
  end.
Proof.
  intros A [m sh o] r E. unfold arrayref_dense, make_ref in E. cbn [d_shape d_data d_row_major] in *.
  destruct (get_tag (bu_type m)) as [g|] eqn:G; [|destruct sh; discriminate]. cbn [option_map] in E.
  assert (D : dtype_type g = bu_type m).
  { apply (get_tag_inj _ _ g); [|exact G]. destruct g; reflexivity. }
  destruct sh as [n|rows cols]; injection E as <-; (split; [reflexivity|]); (split; [reflexivity|]).
  - intros i Hi. unfold item, numpy. cbn [r_shape r_ndim firstn nd_shape nd_strides address nd_dtype nd_data r_tag r_data]. unfold stored1, elem1. cbn [d_shape d_data].
    destruct (Nat.ltb_spec i n); [|lia]. cbn [omap obind]. rewrite Nat.mul_1_r, Nat.add_0_r, D. reflexivity.
  - intros i j Hi Hj. unfold item, numpy, stored2, elem2. cbn [r_shape r_ndim firstn nd_shape nd_strides address nd_dtype nd_data r_tag r_data r_row_major d_shape d_data d_row_major].
    destruct (Nat.ltb_spec i rows); [|lia]. destruct (Nat.ltb_spec j cols); [|lia]. cbn [andb]. unfold offset.
    destruct o; cbn [address]; destruct (Nat.ltb_spec i rows); try lia; destruct (Nat.ltb_spec j cols); try lia; cbn [omap obind]; rewrite D; f_equal; lia.
Qed.
Print Assumptions C114_numpy.
Example C114_numpy_example : option_map (fun r => item (numpy r) [1; 0]) (arrayref_dense (Dense (Buffer Double [1; 2; 3; 4; 5; 6]) (Matrix 2 3) false)) = Some (Ok 2) /\
  option_map (fun r => item (numpy r) [1; 0]) (arrayref_dense (Dense (Buffer Double [1; 2; 3; 4; 5; 6]) (Matrix 2 3) true)) = Some (Ok 4).
Proof. split; reflexivity. Qed.
(** Meant: a std::vector arrives as an array with one dimension. *)
Definition C114_vector_claim : Prop := forall A is_const (m : buffer A) r, arrayref_vector is_const m = Some r -> nd_shape (numpy r) = [length (bu_cells m)].
Theorem C114_vector_partial : forall A (m : buffer A) r, arrayref_vector true m = Some r -> nd_shape (numpy r) = [length (bu_cells m)] /\
  forall i, i < length (bu_cells m) -> item (numpy r) [i] = read (bu_type m) m i.
Proof.
  intros A m r E. unfold arrayref_vector, arrayref1, make_ref in E. destruct (get_tag (bu_type m)) as [g|] eqn:G; [|discriminate]. injection E as <-. split; [reflexivity|].
  intros i Hi. unfold item, numpy. cbn [r_shape r_ndim firstn nd_shape nd_strides address nd_dtype nd_data r_tag r_data]. destruct (Nat.ltb_spec i (length (bu_cells m))); [|lia]. cbn [omap obind].
  rewrite Nat.mul_1_r, Nat.add_0_r. f_equal. apply (get_tag_inj _ _ g); [destruct g; reflexivity|exact G].
Qed.
Print Assumptions C114_vector_partial.
(** One which can be changed has three. *)
Theorem C114_vector_refuted : ~ C114_vector_claim.
Proof. intros H. specialize (H nat false (Buffer (Int true 4) [5; 6]) _ eq_refl). discriminate H. Qed.
Print Assumptions C114_vector_refuted.
Example C114_vector_example : option_map (fun r => nd_shape (numpy r)) (arrayref_vector false (Buffer (Int true 4) [5; 6])) = Some [1; 1; 2].
Proof. reflexivity. Qed.
Example C114_solver_example : calc_spatial_ldos (fun en psi => obind (elem1 Double (mp_dense en) 1) (fun e => omap (pair e) (elem2 CDouble (mp_dense psi) 0 1)))
  (Strategy CDouble [10; 20] [1; 2; 3; 4; 5; 6] 3) = Ok (20, 4).
Proof. reflexivity. Qed.
