(* C117: vectors of fixed size given by arrays. *)
From Verif Require Import Base VecCaster.
From Coq Require Import ZArith Lia.
Local Open Scope Z_scope.
Arguments load {S}.

(** ** What is meant *)
(** Element [k] of an array is [k] strides behind its base. *)
Definition element {S} (mem : Z -> S) (a : ndarray) (k : nat) : S := mem (nd_base a + Z.of_nat k * nd_stride a).
(** All elements are in the memory of the machine. *)
Definition in_memory (a : ndarray) : Prop := forall k, 0 <= k < nd_size a -> 0 <= nd_base a + k * nd_stride a < 2 ^ 64.
(** Arrays with at most one axis, which are not too long, give their elements followed by zeros; all others are not accepted. *)
Definition meant {S} (zero : S) (dim : nat) (mem : Z -> S) (a : ndarray) : option (list S) :=
  match nd_ndim a with
  | O => Some (mem (nd_base a) :: repeat zero (dim - 1))
  | 1%nat => if nd_size a <=? Z.of_nat dim then Some (map (element mem a) (seq 0 (Z.to_nat (nd_size a))) ++ repeat zero (dim - Z.to_nat (nd_size a))) else None
  | _ => None
  end.
Definition C117_claim : Prop := forall S (zero : S) sizeof dim mem a, (0 < dim)%nat -> 0 < sizeof -> (sizeof | 2 ^ 64) -> 0 <= nd_size a -> in_memory a ->
  load zero sizeof dim mem a = Ok (meant zero dim mem a).

(** ** Proof *)
Lemma to_int_small : forall x, 0 <= x < 2 ^ 31 -> to_int x = x.
Proof. intros x H. unfold to_int. rewrite Z.mod_small by lia. destruct (Z.ltb_spec x (2 ^ 31)); lia. Qed.
Lemma to_index_mod : forall x, to_index x mod 2 ^ 64 = x mod 2 ^ 64.
Proof.
  intros x. unfold to_index, two64. destruct (x mod 2 ^ 64 <? 2 ^ 63); [apply Z.mod_mod; lia|]. replace (x mod 2 ^ 64 - 2 ^ 64) with (x mod 2 ^ 64 + (-1) * 2 ^ 64) by lia. rewrite Z.mod_add by lia. apply Z.mod_mod. lia.
Qed.
Lemma address : forall base sizeof stride k, 0 < sizeof -> (sizeof | 2 ^ 64) -> (sizeof | stride) ->
  (base + sizeof * (k * to_index ((stride mod two64) / sizeof))) mod two64 = (base + k * stride) mod two64.
Proof.
  intros base sizeof stride k Hs (w & Hw) (t & Ht). unfold two64. set (q := (stride mod 2 ^ 64) / sizeof).
  assert (Hq : sizeof * q = stride mod 2 ^ 64).
  { unfold q. symmetry. apply Z_div_exact_full_2; [lia|]. apply Z.mod_divide; [lia|]. exists (t - (stride / 2 ^ 64) * w). rewrite Z.mod_eq by lia. rewrite Ht at 1. rewrite Hw at 1. ring. }
  rewrite <- Z.add_mod_idemp_r by lia. rewrite <- (Z.add_mod_idemp_r base (k * stride)) by lia. f_equal. f_equal.
  replace (sizeof * (k * to_index q)) with ((sizeof * k) * to_index q) by ring. rewrite <- Z.mul_mod_idemp_r by lia. rewrite to_index_mod. rewrite Z.mul_mod_idemp_r by lia.
  replace (sizeof * k * q) with (k * (sizeof * q)) by ring. rewrite Hq. apply Z.mul_mod_idemp_r. lia.
Qed.
Lemma write_all : forall {S} (zero : S) (f : nat -> S) dim n, (n <= dim)%nat -> fold_left (fun v k => upd v k (f k)) (seq 0 n) (repeat zero dim) = map f (seq 0 n) ++ repeat zero (dim - n).
Proof.
  intros S zero f dim n. induction n as [|n IH]; intros H; [cbn; rewrite Nat.sub_0_r; reflexivity|]. rewrite seq_S, fold_left_app, IH by lia. cbn [fold_left Nat.add]. rewrite map_app, <- app_assoc. cbn [map app].
  replace (dim - n)%nat with (Datatypes.S (dim - Datatypes.S n)) by lia. cbn [repeat]. generalize (repeat zero (dim - Datatypes.S n)) as t. intros t.
  assert (U : forall (P : list S) x y T, upd (P ++ x :: T) (length P) y = P ++ y :: T) by (intros P x y T; induction P as [|p P IHP]; [reflexivity|]; cbn; rewrite IHP; reflexivity).
  pose proof (U (map f (seq 0 n)) zero (f n) t) as G. rewrite map_length, seq_length in G. exact G.
Qed.
(** True if the distance of the elements is a whole number of elements, negative ones included, and there are fewer than 2^31 of them. *)
Theorem C117_load_partial : forall S (zero : S) sizeof dim mem a, (0 < dim)%nat -> 0 < sizeof -> (sizeof | 2 ^ 64) -> 0 <= nd_size a -> in_memory a ->
  (nd_ndim a = 1%nat -> nd_size a < 2 ^ 31 /\ (sizeof | nd_stride a)) -> load zero sizeof dim mem a = Ok (meant zero dim mem a).
Proof.
  intros S zero sizeof dim mem a Hd Hs Hw H0 Hm Hg. unfold load, meant. destruct (nd_ndim a) as [|[|n]]; [| |reflexivity].
  - cbn. destruct dim; [lia|]. cbn. rewrite Nat.sub_0_r. reflexivity.
  - destruct (Hg eq_refl) as [Hl Ha]. change (1 <? 1)%nat with false. change (1 =? 0)%nat with false. cbv iota zeta. rewrite to_int_small by lia.
    destruct (Z.ltb_spec (Z.of_nat dim) (nd_size a)) as [L|L]; destruct (Z.leb_spec (nd_size a) (Z.of_nat dim)) as [L'|L']; try lia; [reflexivity|]. destruct (Z.ltb_spec (nd_size a) 0); [lia|].
    do 2 f_equal. rewrite (write_all zero (fun k => mem ((nd_base a + sizeof * (Z.of_nat k * to_index ((nd_stride a mod two64) / sizeof))) mod two64))) by lia. f_equal.
    apply map_ext_in. intros k Hk. apply in_seq in Hk. unfold element. rewrite address by assumption. f_equal. apply Z.mod_small. apply Hm. lia.
Qed.
Print Assumptions C117_load_partial.

(** A field of packed records (a float and a byte) is 5 bytes apart and read 4 bytes apart. *)
Theorem C117_load_refuted : ~ C117_claim.
Proof.
  intros H. pose (mem := fun x => if x =? 1000 then 1 else if x =? 1005 then 2 else 77). specialize (H Z 0 4 3%nat mem (NdArray 1 2 1000 5)).
  assert (E : load 0 4 3 mem (NdArray 1 2 1000 5) = Ok (Some [1; 77; 0])) by reflexivity. rewrite E in H. enough (Ok (Some [1; 77; 0]) = Ok (Some [1; 2; 0])) by discriminate. apply H; cbn [nd_size]; try lia.
  - exists (2 ^ 62). reflexivity.
  - intros k Hk. cbn [nd_size nd_base nd_stride] in *. lia.
Qed.
Print Assumptions C117_load_refuted.
(** The length is cut to 32 bits: of lengths 2^31 and more some are accepted and some are copied with a negative length. *)
Theorem C117_long_refuted : ~ (forall S (zero : S) sizeof dim mem a, (0 < dim)%nat -> 0 < sizeof -> (sizeof | 2 ^ 64) -> (sizeof | nd_stride a) -> in_memory a ->
  nd_ndim a = 1%nat -> Z.of_nat dim < nd_size a -> load zero sizeof dim mem a = Ok None).
Proof.
  intros H. specialize (H Z 0 4 3%nat (fun _ => 1) (NdArray 1 (2 ^ 32 + 2) 1000 0)). assert (E : load 0 4 3 (fun _ => 1) (NdArray 1 (2 ^ 32 + 2) 1000 0) = Ok (Some [1; 1; 0])) by reflexivity. rewrite E in H.
  enough (Ok (Some [1; 1; 0]) = Ok (@None (list Z))) by discriminate. apply H; cbn [nd_size nd_ndim nd_stride]; try lia.
  - exists (2 ^ 62). reflexivity.
  - exists 0. reflexivity.
  - intros k Hk. cbn [nd_base nd_stride]. lia.
Qed.
Print Assumptions C117_long_refuted.
Theorem C117_long_ub : forall S (zero : S) sizeof dim mem a, nd_ndim a = 1%nat -> 2 ^ 31 <= nd_size a < 2 ^ 32 -> load zero sizeof dim mem a = UB.
Proof.
  intros S zero sizeof dim mem a Hn Hl. unfold load. rewrite Hn. change (1 <? 1)%nat with false. change (1 =? 0)%nat with false. cbv iota zeta.
  assert (E : to_int (nd_size a) = nd_size a - 2 ^ 32) by (unfold to_int; rewrite Z.mod_small by lia; destruct (Z.ltb_spec (nd_size a) (2 ^ 31)); lia). rewrite E.
  destruct (Z.ltb_spec (Z.of_nat dim) (nd_size a - 2 ^ 32)); [lia|]. destruct (Z.ltb_spec (nd_size a - 2 ^ 32) 0); [reflexivity|lia].
Qed.
Print Assumptions C117_long_ub.
(** A vector given to Python comes back as it was. *)
Theorem C117_roundtrip : forall S (zero : S) sizeof (v : list S) mem base, v <> [] -> 0 < sizeof -> (sizeof | 2 ^ 64) -> Z.of_nat (length v) < 2 ^ 31 ->
  0 <= base -> base + sizeof * Z.of_nat (length v) <= 2 ^ 64 -> (forall k, (k < length v)%nat -> mem (base + sizeof * Z.of_nat k) = nth k v zero) ->
  load zero sizeof (length v) mem (cast sizeof (length v) base) = Ok (Some v).
Proof.
  intros S zero sizeof v mem base Hv Hs Hw Hl Hb He Hm. rewrite C117_load_partial; try assumption.
  - unfold meant, cast. cbn [nd_ndim nd_size]. destruct (Z.leb_spec (Z.of_nat (length v)) (Z.of_nat (length v))); [|lia]. rewrite Nat2Z.id, Nat.sub_diag. cbn [repeat]. rewrite app_nil_r. do 2 f_equal.
    apply (nth_ext _ _ zero zero); [rewrite map_length, seq_length; reflexivity|]. intros k Hk. rewrite map_length, seq_length in Hk. rewrite (nth_indep _ zero (element mem (NdArray 1 (Z.of_nat (length v)) base sizeof) 0)) by (rewrite map_length, seq_length; exact Hk).
    rewrite map_nth, seq_nth by exact Hk. unfold element. cbn [nd_base nd_stride Nat.add]. rewrite Z.mul_comm. apply Hm. exact Hk.
  - destruct v; [congruence|cbn; lia].
  - cbn. lia.
  - intros k Hk. cbn [cast nd_size nd_base nd_stride] in *. nia.
  - intros _. cbn. split; [lia|]. exists 1. lia.
Qed.
Print Assumptions C117_roundtrip.

(** ** Examples *)
Definition mem_ex (x : Z) : Z := (x - 1000) / 4 + 10.
(** A 2-vector is filled with a zero; a reversed array, whose stride wraps around as an unsigned number, is read backwards. *)
Example C117_short : load 0 4 3 mem_ex (NdArray 1 2 1000 4) = Ok (Some [10; 11; 0]). Proof. reflexivity. Qed.
Example C117_reversed : load 0 4 3 mem_ex (NdArray 1 3 1008 (-4)) = Ok (Some [12; 11; 10]). Proof. reflexivity. Qed.
Example C117_empty : load 0 4 3 mem_ex (NdArray 1 0 1000 4) = Ok (Some [0; 0; 0]). Proof. reflexivity. Qed.
Example C117_number : load 0 4 3 mem_ex (NdArray 0 1 1004 0) = Ok (Some [11; 0; 0]). Proof. reflexivity. Qed.
Example C117_four : load 0 4 3 mem_ex (NdArray 1 4 1000 4) = Ok None. Proof. reflexivity. Qed.
Example C117_matrix : load 0 4 3 mem_ex (NdArray 2 3 1000 4) = Ok None. Proof. reflexivity. Qed.
