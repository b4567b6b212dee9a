(* C110: vector instructions. *)
From Verif Require Import Base Scalar Kpm KpmSpec KpmVec KpmEll KpmEllProofs KpmCheb KpmStats Simd SimdProofs SimdKernels.
From Coq Require Import Ring.

(* ------------------------------------------------------------------ C110 *)
(** What memory holds: every scalar as its words, one after the other. *)
Definition real_memory {A : scalar} (l : list A) : list A := l.
Fixpoint complex_memory {A : scalar} (l : list (A * A)) : list A := match l with [] => [] | (re, im) :: r => re :: im :: complex_memory r end.
Definition steps_of (w : word) (complex : bool) : nat := match w, complex with F32, false => 8 | F32, true => 4 | F64, false => 4 | F64, true => 2 end.

(** Gathering picks the elements at the indices, in order, on every instruction set. *)
Theorem C110_gather : forall (A : scalar) ar w,
  (forall (xs : list A) idx, length idx = steps_of w false -> (forall i, In i idx -> i < length xs) ->
     gather_real k0 ar w (real_memory xs) idx = Ok (real_memory (map (fun i => nth i xs k0) idx)))
  /\ (forall (xs : list (A * A)) idx, length idx = steps_of w true -> (forall i, In i idx -> i < length xs) ->
     gather_complex k0 ar w (complex_memory xs) idx = Ok (complex_memory (map (fun i => nth i xs (k0, k0)) idx))).
Proof.
  intros A ar w. split.
  - intros xs idx L H. unfold real_memory. apply gather_real_ok; auto. rewrite L. destruct w; reflexivity.
  - intros xs idx L H. assert (E : forall l : list (A * A), complex_memory l = concat (map (fun p => [fst p; snd p]) l)) by (induction l as [|[a b] l IH]; cbn; [|rewrite IH]; reflexivity).
    rewrite !E. apply gather_complex_ok; auto. rewrite L. destruct w; reflexivity.
Qed.

(** The arithmetic of complex registers, in real and imaginary parts. *)
Definition re {A : scalar} (z : A * A) : A := fst z.
Definition im {A : scalar} (z : A * A) : A := snd z.
Section Arithmetic.
  Variable A : scalar.
  Local Open Scope k_scope.
  Add Ring AringP : (k_ring A).
  Notation mem := (@complex_memory A).
  Theorem C110_arithmetic : forall ar w (t : list ((A * A) * (A * A) * (A * A))), length t = steps_of w true ->
    let a := map (fun p => fst (fst p)) t in let b := map (fun p => snd (fst p)) t in let c := map snd t in
    madd_complex A ar (mem a) (mem b) (mem c)
      = mem (map (fun p => match p with (a, b, c) => (re a * re b - im a * im b + re c, re a * im b + im a * re b + im c) end) t)
    /\ conj_madd_complex A ar (mem a) (mem b) (mem c)
      = mem (map (fun p => match p with (a, b, c) => (re a * re b + im a * im b + re c, re a * im b - im a * re b + im c) end) t)
    /\ total_complex A (mem a) = (ksum re a, ksum im a)
    /\ reduce_imag_complex A (mem a) = mem (map (fun z => (re z + im z, k0)) a)
    /\ (forall z, splat_complex A w z = mem (repeat z (steps_of w true))).
  Proof.
    intros ar w t L a b c.
    assert (E : forall l : list (A * A), complex_memory l = concat (map (fun p => [fst p; snd p]) l)) by (induction l as [|[x y] l IH]; cbn; [|rewrite IH]; reflexivity).
    assert (Hk : exists k, length t = (2 * k)%nat) by (rewrite L; destruct w; [exists 2%nat|exists 1%nat]; reflexivity). destruct Hk as (k & Hk).
    assert (La : length a = (2 * k)%nat) by (unfold a; rewrite map_length; auto). assert (Lb : length b = (2 * k)%nat) by (unfold b; rewrite map_length; auto).
    rewrite !E. split; [|split; [|split; [|split]]].
    - rewrite (madd_flat A ar a b c k) by auto. unfold a, b, c. rewrite (@zip3_map (pair_scalar A)). f_equal. f_equal. apply map_ext. intros [[x y] u]. reflexivity.
    - rewrite (cmadd_flat A ar a b c k) by auto. unfold a, b, c. rewrite (@zip3_map (pair_scalar A)). f_equal. f_equal. apply map_ext. intros [[x y] u].
      unfold p_add, p_mul, p_conj, re, im. cbn [fst snd]. f_equal; ring.
    - rewrite total_flat, ksum_pair. reflexivity.
    - apply fold_flat.
    - intros [x y]. rewrite E. destruct w; reflexivity.
  Qed.
End Arithmetic.

(** The scalar types of the library: float and double, alone or in complex numbers, on SSE, AVX and AVX2. *)
Inductive vector_type : forall A R : scalar, nat -> vectors A R -> Prop :=
  | real_type : forall (A : scalar) ar w, (forall a : A, kconj a = a) -> vector_type A A (word_bytes w) (real_vectors A ar w)
  | complex_type : forall (A : scalar) ar w, vector_type A (pair_scalar A) (2 * word_bytes w) (complex_vectors A ar w).
Lemma vector_type_laws : forall A R sz V, vector_type A R sz V -> vector_laws A R V.
Proof. intros A R sz V H. destruct H; [apply real_laws; auto|apply complex_laws]. Qed.
Theorem C110_memory : forall (A : scalar) ar w,
  (forall l, flat A A (real_vectors A ar w) l = real_memory l) /\ (forall l, flat A (pair_scalar A) (complex_vectors A ar w) l = complex_memory l).
Proof.
  intros A ar w. split; [intros; apply flat_real|]. induction l as [|[x y] l IH]; [reflexivity|]. cbn [complex_memory]. rewrite <- IH. reflexivity.
Qed.

(** [y = H x - y] on the rows from [s] to [e]. *)
Section Spec.
  Variable R : scalar.
  Local Open Scope k_scope.
  Definition product (m : csr R) (N s e : nat) (x y y' : list R) : Prop :=
    length y' = N /\ forall i, i < N ->
      nth i y' k0 = if (s <=? i) && (i <? e) then ksum (fun j => coef m i j * nth j x k0) (seq 0 N) - nth i y k0 else nth i y k0.
  Definition norm_part (s e : nat) (x : list R) : R := ksum (fun i => kconj (nth i x k0) * nth i x k0) (seq s (e - s)).
  Definition dot_part (s e : nat) (y x : list R) : R := ksum (fun i => kconj (nth i y k0) * nth i x k0) (seq s (e - s)).
  Lemma ref_product : forall m N s e x y, in_range R m N -> product m N s e x y (spmv_ref R m N s e x y).
  Proof.
    intros m N s e x y Hr. split; [apply spmv_ref_length|]. intros i Hi. change (nth i (spmv_ref R m N s e x y) k0) with (vec (spmv_ref R m N s e x y) i).
    rewrite spmv_ref_at by auto. rewrite (act_ap R m N (vec x) i (fun p => proj2 Hr i p)). reflexivity.
  Qed.
End Spec.

(** The kernels of one vector, whatever the alignment of [y]. *)
Theorem C110_vector : forall A R sz V, vector_type A R sz V -> forall m N, in_range R m N -> 0 < N -> (exists i, entries m i <> []) ->
  exists ell, csr_to_ell R m = Ok ell /\
  forall base s e x y, length x = N -> length y = N -> s <= e -> e <= N ->
  exists y', product R m N s e x y y'
    /\ w_spmv A R V (is_aligned base sz) 0 ell s e (flat A R V x) (flat A R V y) = Ok (flat A R V y')
    /\ forall m2 m3, w_diag A R V (is_aligned base sz) ell s e (flat A R V x) (flat A R V y) m2 m3
                     = Ok (flat A R V y', kadd m2 (norm_part R s e x), kadd m3 (dot_part R s e y' x)).
Proof.
  intros A R sz V HV m N Hr HN (i & Hi). apply vector_type_laws in HV. destruct (csr_to_ell_ok R m N Hr HN) as (el & Ee & En & HF). pose proof (max_nnz_pos R m i Hi) as Hp.
  rewrite <- En in HF, Hp. pose proof (proj1 Hr) as Hm. exists el. split; [exact Ee|]. intros base s e x y Hx Hy H1 H2.
  exists (spmv_ref R m N s e x y). split; [apply ref_product; auto|]. split.
  - apply (w_spmv_ok A R V HV N m el Hm HF Hp); auto.
  - intros m2 m3. apply (w_diag_ok A R V HV N m el Hm HF Hp); auto.
Qed.

(** Row by row, one column per lane. *)
Definition row_major {R : scalar} (N step : nat) (columns : nat -> list R) : list R :=
  concat (map (fun i => map (fun j => nth i (columns j) k0) (seq 0 step)) (seq 0 N)).
Theorem C110_batch : forall A R sz V, vector_type A R sz V -> forall m N, in_range R m N -> 0 < N -> (exists i, entries m i <> []) ->
  let step := 32 / sz in let mem c := flat A R V (row_major N step c) in let scalars f := flat A R V (map f (seq 0 step)) in
  exists ell, csr_to_ell R m = Ok ell /\
  forall s e (x y : nat -> list R), (forall j, j < step -> length (x j) = N /\ length (y j) = N) -> s <= e -> e <= N ->
  exists y', (forall j, j < step -> product R m N s e (x j) (y j) (y' j))
    /\ b_spmv A R V 0 ell s e (mem x) (mem y) = Ok (mem y')
    /\ forall m2 m3 : nat -> R, b_diag A R V ell s e (mem x) (mem y) (scalars m2) (scalars m3)
         = Ok (mem y', scalars (fun j => kadd (m2 j) (norm_part R s e (x j))), scalars (fun j => kadd (m3 j) (dot_part R s e (y' j) (x j)))).
Proof.
  intros A R sz V HV m N Hr HN (i & Hi) step mem scalars.
  assert (Es : step = v_step V) by (destruct HV as [A ar w H|A ar w]; destruct w; reflexivity).
  apply vector_type_laws in HV. destruct (csr_to_ell_ok R m N Hr HN) as (el & Ee & En & HF). pose proof (max_nnz_pos R m i Hi) as Hp.
  rewrite <- En in HF, Hp. pose proof (proj1 Hr) as Hm. exists el. split; [exact Ee|]. intros s e x y Hxy H1 H2.
  unfold mem, scalars. clear mem scalars. revert Hxy. rewrite Es. intros Hxy.
  exists (fun j => spmv_ref R m N s e (x j) (y j)). split; [intros; apply ref_product; auto|]. split.
  - apply (b_spmv_ok A R V HV N m el Hm HF Hp); auto; intros; apply Hxy; auto.
  - intros m2 m3. apply (b_diag_ok A R V HV N m el Hm HF Hp); auto; intros; apply Hxy; auto.
Qed.

(** In the moment loops they can stand for the kernels of compressed rows. *)
Theorem C110_loops : forall A R sz V, vector_type A R sz V -> forall (half : R) m N base, in_range R m N -> 0 < N -> (exists i, entries m i <> []) ->
  let k1 := w_kernel A R V half (is_aligned base sz) m in let k2 := csr_kernel half m in
  kr_rows k1 = kr_rows k2
  /\ (forall s e x y, length x = N -> length y = N -> s <= e -> e <= N -> kr_spmv k1 s e x y = kr_spmv k2 s e x y)
  /\ (forall s e x y m2 m3, length x = N -> length y = N -> s <= e -> e <= N -> kr_diag k1 s e x y m2 m3 = kr_diag k2 s e x y m2 m3)
  /\ (forall r, length r = N -> kr_r1 k1 r = kr_r1 k2 r).
Proof.
  intros A R sz V HV half m N base Hr HN Hi k1 k2. apply vector_type_laws in HV.
  destruct (csr_kernel_ok R half m N Hr) as (A0 & A1 & A2 & A3). destruct (w_kernel_ok A R V half (is_aligned base sz) m N HV Hr HN Hi) as (B0 & B1 & B2 & B3).
  unfold k1, k2. split; [rewrite A0, B0; reflexivity|]. split; [|split]; intros.
  - rewrite A1, B1; auto. - rewrite A2, B2; auto. - rewrite A3, B3; auto.
Qed.

(** Every aligned instruction gets an aligned address inside of its array: the arrays start at multiples
    of 32 bytes (Eigen's allocator), columns are [aligned_size] apart. *)
Definition multiple_of (k a : nat) : Prop := exists c, a = c * k.
Theorem C110_aligned : forall sz, In sz [4; 8; 16] -> forall N base_d base_i base_x base_y,
  multiple_of 32 base_d -> multiple_of 32 base_i -> multiple_of 32 base_x -> multiple_of 32 base_y ->
  let step := 32 / sz in
  exists stride stride_i, aligned_size sz N = Some stride /\ aligned_size 4 N = Some stride_i /\
  forall s e, s <= e -> e <= N ->
  exists sp, split_loop (is_aligned base_y sz) step s e = Some sp /\
  forall row, In row (vec_rows step sp) ->
    multiple_of 32 (base_y + row * sz) /\ multiple_of 32 (base_x + row * sz) /\ s <= row /\ row + step <= e
    /\ forall n, multiple_of 32 (element_address base_d sz stride row n) /\ multiple_of (4 * step) (element_address base_i 4 stride_i row n)
                 /\ row + step <= stride /\ row + step <= stride_i.
Proof.
  intros sz Hsz N bd bi bx bY (cd & ->) (ci & ->) (cx & ->) (cy & ->) step.
  assert (Hst : step * sz = 32 /\ 0 < step /\ 0 < sz /\ exists g, 8 = g * step) by (destruct Hsz as [<-|[<-|[<-|[]]]]; unfold step; cbn; repeat split; try lia; [exists 1|exists 2|exists 4]; reflexivity).
  destruct Hst as (Hst & Hs & Hz & (g & Hg)).
  destruct (round_up_ok step step N Hs) as (st & E1 & M1 & G1 & _). { apply Nat.lt_le_incl, Nat.mod_upper_bound. lia. }
  destruct (round_up_ok 8 8 N ltac:(lia)) as (si & E2 & M2 & G2 & _). { apply Nat.lt_le_incl, Nat.mod_upper_bound. lia. }
  exists st, si. split; [exact E1|]. split; [exact E2|]. intros s e H1 H2.
  destruct (split_ok (is_aligned (cy * 32) sz) step s e Hs H1) as (sp & k & E & P1 & P2 & P3 & P4 & P5). exists sp. split; [exact E|].
  intros row Hi. unfold vec_rows in Hi. apply in_map_iff in Hi. destruct Hi as (j & <- & Hj). apply in_seq in Hj. rewrite P2 in Hj.
  assert (Hp : exists p, sp_peel sp = p * step).
  { rewrite (split_peel _ _ _ _ _ E). destruct (peel_aligned (is_aligned (cy * 32) sz) (e - s) s) as [Ha|Ha].
    - unfold is_aligned in Ha. apply Nat.eqb_eq in Ha. set (p := peel_loop _ _ _) in *. apply Nat.mod_divides in Ha; [|lia]. destruct Ha as (c & Hc).
      exists (c - cy). assert (p * sz = (c - cy) * step * sz) by nia. nia.
    - rewrite <- (split_peel _ _ _ _ _ E) in Ha. nia. }
  destruct Hp as (p & Hp). rewrite Hp in *. replace (p * step + j * step) with ((p + j) * step) in * by lia.
  apply Nat.mod_divides in M1; [|lia]. destruct M1 as (a & ->). apply Nat.mod_divides in M2; [|lia]. destruct M2 as (b & ->).
  split; [exists (cy + (p + j)); nia|]. split; [exists (cx + (p + j)); nia|]. split; [nia|]. split; [nia|].
  intros n. unfold element_address. split; [exists (cd + (n * a + (p + j))); nia|]. split.
  - exists (ci * g + n * b * g + (p + j)).
    transitivity (4 * ci * (g * step) + 4 * n * b * (g * step) + 4 * (p + j) * step); [rewrite <- Hg; ring|ring].
  - split; nia.
Qed.
(** A batch keeps 32 bytes per row. *)
Theorem C110_batch_aligned : forall sz, In sz [4; 8; 16] -> forall base, multiple_of 32 base -> forall row, multiple_of 32 (base + row * (32 / sz) * sz).
Proof. intros sz Hsz base (c & ->) row. exists (c + row). destruct Hsz as [<-|[<-|[<-|[]]]]; [change (32 / 4) with 8|change (32 / 8) with 4|change (32 / 16) with 2]; ring. Qed.

(** Ten rows of complex floats from row 1 to row 10 with [y] at an aligned address: rows 1 to 3 one by one, the
    register of rows 4 to 7, rows 8 and 9; SSE, AVX and AVX2 agree with compressed rows. *)
Definition zc : scalar := pair_scalar zscalar.
Definition ring_matrix : csr zc :=
  map (fun i => [(i, (Z.of_nat i, 1%Z) : zc); ((i + 3) mod 10, (2%Z, - Z.of_nat i)%Z : zc)] ++ (if i =? 5 then [(9, (7%Z, 7%Z) : zc)] else [])) (seq 0 10).
Definition xs10 : list zc := map (fun i => (Z.of_nat i, 2 - Z.of_nat i)%Z) (seq 0 10).
Definition ys10 : list zc := map (fun i => (5 - Z.of_nat i, Z.of_nat (i * i))%Z) (seq 0 10).
Definition run (ar : arch) (w : word) (sz base : nat) :=
  match csr_to_ell zc ring_matrix with
  | Ok m => w_diag zscalar zc (complex_vectors zscalar ar w) (is_aligned base sz) m 1 10 (complex_memory xs10) (complex_memory ys10) (0, 0)%Z (0, 0)%Z
  | _ => UB
  end.
Example C110_example :
  (let f := kr_diag (csr_kernel (k0 : zc) ring_matrix) 1 10 xs10 ys10 (0, 0)%Z (0, 0)%Z in
   exists y m2 m3, f = Ok (y, m2, m3) /\ fst m2 = 426%Z /\
     forall r, In r [run SSE F32 8 64; run AVX F32 8 64; run AVX2 F32 8 64; run SSE F64 16 32; run AVX2 F64 16 48] -> r = Ok (complex_memory y, m2, m3))
  /\ option_map (fun sp => (peel_rows 1 sp, vec_rows 4 sp, rest_rows 4 10 sp)) (split_loop (is_aligned 64 8) 4 1 10) = Some ([1; 2; 3], [4], [8; 9])
  /\ gather_complex 0%Z SSE F32 (complex_memory xs10) [7; 0; 3; 3] = Ok [7; -5; 0; 2; 3; -1; 3; -1]%Z
  /\ aligned_size 8 10 = Some 12 /\ aligned_size 4 10 = Some 16.
Proof.
  split; [|vm_compute; auto]. cbv zeta. eexists. eexists. eexists. split; [vm_compute; reflexivity|]. split; [reflexivity|].
  intros r Hr. repeat (destruct Hr as [<-|Hr]; [vm_compute; reflexivity|]). destruct Hr.
Qed.
(** Two complex doubles per row: the lanes of a batch are two vectors, [m2] and [m3] two numbers each. *)
Example C110_batch_example :
  let V := complex_vectors zscalar AVX F64 in
  let x j := map (fun z : zc => kmul z ((Z.of_nat (S j), 1%Z) : zc)) xs10 in let y (j : nat) := rev ys10 in
  let mem c := flat zscalar zc V (row_major 10 2 c) in
  match csr_to_ell zc ring_matrix with
  | Ok m => match b_diag zscalar zc V m 2 9 (mem x) (mem y) [1; 0; 2; 0]%Z [0; 0; 0; 0]%Z with
            | Ok (y', m2, m3) =>
                let f j := kr_diag (csr_kernel (k0 : zc) ring_matrix) 2 9 (x j) (y j) (Z.of_nat (S j), 0)%Z (0, 0)%Z in
                match f 0, f 1 with
                | Ok (a, a2, a3), Ok (b, b2, b3) => y' = mem (fun j => match j with 0 => a | _ => b end) /\ m2 = complex_memory [a2; b2] /\ m3 = complex_memory [a3; b3] /\ m2 = [589; 0; 1472; 0]%Z
                | _, _ => False
                end
            | _ => False
            end
  | _ => False
  end.
Proof. vm_compute. repeat split. Qed.
Print Assumptions C110_gather. Print Assumptions C110_vector. Print Assumptions C110_batch. Print Assumptions C110_aligned. Print Assumptions C110_loops.
