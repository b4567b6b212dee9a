(* Properties C25-C32: kernel polynomial method. *)
From Verif Require Import Base Scalar Kpm KpmSpec KpmVec KpmLoops KpmOptimized KpmCheb KpmCore KpmEnd KpmEll KpmEllProofs KpmBatch KpmBatchProofs KpmFinal GaussQ.
From Coq Require Import Ascii String QArith Qcanon.
Local Open Scope list_scope.
Local Open Scope nat_scope.

(** Example matrices: a three site chain with complex hopping, and two sites that are not joined. *)
Definition z (p q : Z) : GQ := gq_z p q.
Definition chain : list (list (nat * GQ)) :=
  [[(0, z 1 0); (1, z 1 1)]; [(0, z 1 (-1)); (2, z 2 0)]; [(1, z 2 0)]].
Definition apart : list (list (nat * GQ)) := [[(0, z 1 0)]; [(1, z 1 0)]].
Definition show (o : outcome (list gq)) : outcome (list (Q * Q)) := omap (map see) o.

(* ------------------------------------------------------------------ C25 *)
(** Reordering relabels the scaled matrix by a permutation that sends the first source to 0;
    slice [k] holds the states at distance [k] from it, and a row in slices up to [k] (from [l])
    couples only to slices up to [k + 1] (from [l - 1]). *)
Theorem C25_reordering : forall (R : scalar) (inv_a b : R) N h idx,
  wf_csr N h -> sym_pattern h -> connected N h -> ix_src idx <> [] -> ix_dest idx <> [] ->
  (forall i, In i (ix_src idx) -> i < N) -> (forall i, In i (ix_dest idx) -> i < N) ->
  exists oh pi, optimize R inv_a b h true idx = Ok oh /\
    let borders := sm_data (oh_map oh) in
    (forall i, i < N -> pi i < N) /\ (forall i j, i < N -> j < N -> pi i = pi j -> i = j) /\
    pi (nth 0 (ix_src idx) 0) = 0 /\
    oh_reorder oh = map (fun i => Some (pi i)) (seq 0 N) /\
    wf_csr N (oh_matrix oh) /\
    (forall i j, i < N -> j < N -> coef (oh_matrix oh) (pi i) (pi j) = kmul (kadd k1 k1) (scaled_dense inv_a b (coef h) i j)) /\
    oh_idx oh = Indices (map pi (ix_src idx)) (map pi (ix_dest idx)) /\
    (forall i, i < N -> exists k, distance h (nth 0 (ix_src idx) 0) i k /\ k < List.length borders /\
        pi i < nth k borders 0 /\ (forall p, k = S p -> nth p borders 0 <= pi i)) /\
    nth (List.length borders - 1) borders 0 = N /\
    (forall k, S k < List.length borders -> nth k borders 0 < nth (S k) borders 0) /\
    (forall i j k l, i < N -> linked (oh_matrix oh) i j -> k < List.length borders -> l < List.length borders ->
       i < nth k borders 0 -> (forall p, l = S p -> nth p borders 0 <= i) ->
       (S k < List.length borders -> j < nth (S k) borders 0) /\ (forall p, l = S (S p) -> nth p borders 0 <= j)).
Proof. exact slices_ok. Qed.

(** A state that cannot be reached from the first source makes the construction read outside its
    arrays. *)
Theorem C25_unreachable : forall (R : scalar) (inv_a b : R) N h idx v,
  wf_csr N h -> ix_src idx <> [] -> (forall i, In i (ix_src idx) -> i < N) -> v < N ->
  (forall n, ~ walk h n (nth 0 (ix_src idx) 0) v) -> optimize R inv_a b h true idx = UB.
Proof. exact create_reordered_ub. Qed.

Definition show_opt (o : outcome (optimized GQ)) :=
  omap (fun oh : optimized GQ => (map (map (fun e : nat * gq => (fst e, see (snd e)))) (oh_matrix oh : list (list (nat * gq))), sm_data (oh_map oh), oh_reorder oh)) o.
Example C25_example : show_opt (optimize GQ (@k1 GQ) (@k0 GQ) chain true (Indices [2] [2]))
  = Ok ([[(1, (4, 0)%Q)]; [(0, (4, 0)%Q); (2, (2, -2)%Q)]; [(1, (2, 2)%Q); (2, (2, 0)%Q)]],
        [1; 2; 3], [Some 2; Some 1; Some 0]).
Proof. vm_compute. reflexivity. Qed.
Example C25_example_apart : show_opt (optimize GQ (@k1 GQ) (@k0 GQ) apart true (Indices [0] [0])) = UB.
Proof. vm_compute. reflexivity. Qed.

(* ------------------------------------------------------------------ C26 *)
(** Any two choices of algorithm (size optimisation, interleaving) and matrix format that can be
    used give the same moments. *)
Theorem C26_moments : forall (R : scalar) (half inv_a b : R), kadd half half = k1 ->
  forall N h, 0 < N -> wf_csr N h -> forall al f al' f', usable R inv_a b N h al f -> usable R inv_a b N h al' f' ->
  forall g num alpha beta op, (0 <= num)%Z -> List.length alpha = N -> beta = [] \/ List.length beta = N ->
  (forall o, op = Some o -> in_range R o N) -> (beta = [] -> op = None -> hermitian N (scaled_dense inv_a b (coef h))) ->
  core_moments R half inv_a b (format_kernel R half f) g h al num alpha beta op
  = core_moments R half inv_a b (format_kernel R half f') g h al' num alpha beta op.
Proof.
  intros R half inv_a b Hh N h HN Hw al f al' f' Hu Hu' g num alpha beta op H1 H2 H3 H4 H5.
  destruct (f_moments R half Hh inv_a b N h HN Hw al f Hu g num alpha beta op H1 H2 H3 H4 H5) as (r & Er & ->).
  destruct (f_moments R half Hh inv_a b N h HN Hw al' f' Hu' g num alpha beta op H1 H2 H3 H4 H5) as (r' & Er' & ->).
  rewrite Er in Er'. injection Er' as <-. reflexivity.
Qed.

Theorem C26_greens : forall (R : scalar) (half inv_a b : R), kadd half half = k1 ->
  forall N h, 0 < N -> wf_csr N h -> forall al f al' f', usable R inv_a b N h al f -> usable R inv_a b N h al' f' ->
  forall num row cols, 2 <= num -> (num - 2) mod 4 = 0 -> row < N -> cols <> [] -> (forall c, In c cols -> c < N) ->
  hermitian N (scaled_dense inv_a b (coef h)) ->
  core_greens R half inv_a b (format_kernel R half f) h al num row cols
  = core_greens R half inv_a b (format_kernel R half f') h al' num row cols.
Proof.
  intros R half inv_a b Hh N h HN Hw al f al' f' Hu Hu' num row cols H1 H2 H3 H4 H5 H6.
  rewrite (f_greens R half Hh inv_a b N h HN Hw al f Hu num row cols H1 H2 H3 H4 H5 H6).
  rewrite (f_greens R half Hh inv_a b N h HN Hw al' f' Hu' num row cols H1 H2 H3 H4 H5 H6). reflexivity.
Qed.

Theorem C26_ldos : forall (R : scalar) (half inv_a b : R), kadd half half = k1 ->
  forall N h, 0 < N -> wf_csr N h -> forall al f al' f', usable R inv_a b N h al f -> usable R inv_a b N h al' f' ->
  forall num idx, 2 <= num -> (num - 2) mod 4 = 0 -> idx <> [] -> (forall i, In i idx -> i < N) ->
  hermitian N (scaled_dense inv_a b (coef h)) ->
  exists oh oh', ldos_start R inv_a b h al idx = Ok oh /\ ldos_start R inv_a b h al' idx = Ok oh' /\
    forall k, k < List.length idx -> ldos_column R half (format_kernel R half f) h al num oh k
                                 = ldos_column R half (format_kernel R half f') h al' num oh' k.
Proof.
  intros R half inv_a b Hh N h HN Hw al f al' f' Hu Hu' num idx H1 H2 H3 H4 H5.
  destruct (f_ldos R half Hh inv_a b N h HN Hw al f Hu num idx H1 H2 H3 H4 H5) as (oh & E & D).
  destruct (f_ldos R half Hh inv_a b N h HN Hw al' f' Hu' num idx H1 H2 H3 H4 H5) as (oh' & E' & D').
  exists oh, oh'. split; [exact E|]. split; [exact E'|]. intros k Hk.
  destruct (nth_error idx k) as [s|] eqn:Es; [|apply nth_error_None in Es; lia]. rewrite (D k s Es), (D' k s Es). reflexivity.
Qed.

Definition one (_ _ : nat) : GQ := @k1 GQ.
Definition every (f : algorithm -> format -> outcome (list gq)) : list (outcome (list (Q * Q))) :=
  map show [f (Algorithm false false) Csr; f (Algorithm true false) EllGeneric; f (Algorithm false true) Csr;
            f (Algorithm true true) (EllSimd (fun p => p mod 4 =? 1) 2)].
Definition chain_moments (al : algorithm) (f : format) : outcome (list gq) :=
  core_moments GQ gq_half gq_half (@k1 GQ) (format_kernel GQ gq_half f) one chain al 5 [z 1 0; z 0 1; z 1 1] [] None.
Example C26_example : every chain_moments
  = let r := Ok [(2, 0); (-1 # 2, 0); (5 # 2, 0); (-10, 0); (65 # 2, 0)]%Q in [r; r; r; r].
Proof. vm_compute. reflexivity. Qed.

(* ------------------------------------------------------------------ C27 *)
(** Moments of arbitrary vectors: <beta| op T_n |alpha>, moment zero halved, times the damping
    coefficient [g]. *)
Theorem C27_moments : forall (R : scalar) (half inv_a b : R), kadd half half = k1 ->
  forall N h, 0 < N -> wf_csr N h -> forall al f, usable R inv_a b N h al f ->
  forall g num alpha beta op, (0 <= num)%Z -> List.length alpha = N -> beta = [] \/ List.length beta = N ->
  (forall o, op = Some o -> in_range R o N) -> (beta = [] -> op = None -> hermitian N (scaled_dense inv_a b (coef h))) ->
  exists r, round_num_moments num = Some r /\
  core_moments R half inv_a b (format_kernel R half f) g h al num alpha beta op
  = Ok (map (fun n => kmul (halved half n
          (braket N (vec (match beta with [] => alpha | _ => beta end))
             (dmul N (match op with Some o => coef o | None => delta end) (cheb N (scaled_dense inv_a b (coef h)) n)) (vec alpha)))
          (g (Z.to_nat r) n)) (seq 0 (Z.to_nat num))).
Proof. intros R half inv_a b Hh. exact (f_moments R half Hh inv_a b). Qed.

Theorem C27_ldos : forall (R : scalar) (half inv_a b : R), kadd half half = k1 ->
  forall N h, 0 < N -> wf_csr N h -> forall al f, usable R inv_a b N h al f ->
  forall num idx, 2 <= num -> (num - 2) mod 4 = 0 -> idx <> [] -> (forall i, In i idx -> i < N) ->
  hermitian N (scaled_dense inv_a b (coef h)) ->
  exists oh, ldos_start R inv_a b h al idx = Ok oh /\
    forall k s, nth_error idx k = Some s ->
      ldos_column R half (format_kernel R half f) h al num oh k
      = Ok (map (fun n => halved half n (cheb N (scaled_dense inv_a b (coef h)) n s s)) (seq 0 num)).
Proof. intros R half inv_a b Hh. exact (f_ldos R half Hh inv_a b). Qed.

Theorem C27_dos : forall (R : scalar) (half inv_a b : R), kadd half half = k1 ->
  forall N h, 0 < N -> wf_csr N h -> forall al f, usable R inv_a b N h al f ->
  forall num, 2 <= num -> (num - 2) mod 4 = 0 -> hermitian N (scaled_dense inv_a b (coef h)) ->
  exists oh, optimize R inv_a b h (al_reorder al) (Indices [0] [0]) = Ok oh /\
    forall r, List.length r = N ->
      dos_column R half (format_kernel R half f) al num oh r
      = Ok (map (fun n => halved half n (braket N (vec r) (cheb N (scaled_dense inv_a b (coef h)) n) (vec r))) (seq 0 num)).
Proof. intros R half inv_a b Hh. exact (f_dos R half Hh inv_a b). Qed.

(** Conductivity: element (n, m) is <right T_m r | T_n left r>. *)
Theorem C27_conductivity : forall (R : scalar) (half inv_a b : R), kadd half half = k1 ->
  forall N h, 0 < N -> wf_csr N h -> forall al f, usable R inv_a b N h al f ->
  forall num left right, 2 <= num -> (num - 2) mod 4 = 0 -> in_range R left N -> in_range R right N ->
  exists oh, optimize R inv_a b h (al_reorder al) (Indices [0] [0]) = Ok oh /\
    forall r, List.length r = N ->
      exists mu, conductivity_term R half (format_kernel R half f) al num oh left right r = Ok mu /\
        List.length mu = num /\ forall n, n < num -> List.length (nth n mu []) = num /\ forall m, m < num ->
          nth m (nth n mu []) k0
          = let T := cheb N (scaled_dense inv_a b (coef h)) in
            let apply (A : nat -> nat -> R) (v : nat -> R) (i : nat) : R := ksum (fun j => kmul (A i j) (v j)) (seq 0 N) in
            halved half n (halved half m
              (ksum (fun i => kmul (kconj (apply (coef right) (apply (T m) (vec r)) i)) (apply (T n) (apply (coef left) (vec r)) i)) (seq 0 N))).
Proof. intros R half inv_a b Hh. exact (f_conductivity R half Hh inv_a b). Qed.

Definition chain_between (al : algorithm) (f : format) : outcome (list gq) :=
  core_moments GQ gq_half (@k1 GQ) (@k0 GQ) (format_kernel GQ gq_half f) one chain al 4 [z 1 0; z 0 0; z 0 0] [z 0 0; z 0 0; z 0 1]
    (Some [[(2, z 1 0)]; []; [(2, z 3 0); (0, z 0 2)]]).
Example C27_example : every chain_between
  = let r := Ok [(1, 0); (2, 0); (-2, -12); (10, -24)]%Q in [r; r; r; r].
Proof. vm_compute. reflexivity. Qed.

(* ------------------------------------------------------------------ C28 *)
(** ELLPACK storage keeps every row: its entries first, then padding with value zero and a column
    in range. *)
Theorem C28_storage : forall (R : scalar) (m : list (list (nat * R))) N, in_range R m N -> 0 < N ->
  exists e, csr_to_ell R m = Ok e /\
    Forall2 (fun row r => List.length r = el_nnz R e /\ (forall p, In p r -> fst p < N) /\
                          exists pad, r = row ++ pad /\ forall p, In p pad -> snd p = k0) m (el_rows R e).
Proof.
  intros R m N H1 H2. destruct (csr_to_ell_ok R m N H1 H2) as (e & E & En & F). exists e. split; [exact E|]. rewrite En. exact F.
Qed.

(** The ELLPACK kernels agree with the compressed row kernels on every row range. *)
Definition same_kernels (R : scalar) (N : nat) (k1 k2 : kernel R) : Prop :=
  (forall s e x y, List.length x = N -> List.length y = N -> s <= e -> e <= N -> kr_spmv k1 s e x y = kr_spmv k2 s e x y) /\
  (forall s e x y m2 m3, List.length x = N -> List.length y = N -> s <= e -> e <= N ->
     kr_diag k1 s e x y m2 m3 = kr_diag k2 s e x y m2 m3) /\
  (forall r, List.length r = N -> kr_r1 k1 r = kr_r1 k2 r).
Definition C28_claim : Prop := forall (R : scalar) (half : R) m N f, in_range R m N -> 0 < N ->
  (forall aligned step, f = EllSimd aligned step -> 0 < step) ->
  same_kernels R N (format_kernel R half f m) (csr_kernel half m).

(** Full for the generic build; the vectorised build needs a stored entry. *)
Theorem C28_kernels_partial : forall (R : scalar) (half : R) m N f, in_range R m N -> 0 < N ->
  (forall aligned step, f = EllSimd aligned step -> 0 < step /\ exists i, entries m i <> []) ->
  same_kernels R N (format_kernel R half f m) (csr_kernel half m).
Proof.
  intros R half m N f Hr HN Hf. destruct (csr_kernel_ok R half m N Hr) as (_ & A1 & A2 & A3).
  assert (G : kernel_ok R half (format_kernel R half f m) m N).
  { destruct f; cbn [format_kernel]; [apply csr_kernel_ok|apply ell_generic_kernel_ok|destruct (Hf _ _ eq_refl); apply ell_simd_kernel_ok]; auto. }
  destruct G as (_ & B1 & B2 & B3). split; [|split].
  - intros. rewrite A1, B1; auto.
  - intros. rewrite A2, B2; auto.
  - intros. rewrite A3, B3; auto.
Qed.

(** Rows outside the range are not touched. *)
Theorem C28_other_rows : forall (R : scalar) (half : R) m N f, in_range R m N -> 0 < N ->
  (forall aligned step, f = EllSimd aligned step -> 0 < step /\ exists i, entries m i <> []) ->
  forall s e x y, List.length x = N -> List.length y = N -> s <= e -> e <= N ->
  exists y', kr_spmv (format_kernel R half f m) s e x y = Ok y' /\ List.length y' = N /\
    forall i, i < N -> nth i y' k0 = if (s <=? i) && (i <? e) then ksub (ksum (fun j => kmul (coef m i j) (nth j x k0)) (seq 0 N)) (nth i y k0)
                                     else nth i y k0.
Proof.
  intros R half m N f Hr HN Hf s e x y Hx Hy Hs He.
  assert (G : kernel_ok R half (format_kernel R half f m) m N).
  { destruct f; cbn [format_kernel]; [apply csr_kernel_ok|apply ell_generic_kernel_ok|destruct (Hf _ _ eq_refl); apply ell_simd_kernel_ok]; auto. }
  destruct G as (_ & B1 & _). eexists. split; [apply B1; auto|]. split; [apply spmv_ref_length|].
  intros i Hi. change (nth i (spmv_ref R m N s e x y) k0) with (vec (spmv_ref R m N s e x y) i). rewrite spmv_ref_at by auto.
  rewrite (act_ap R m N (vec x) i (fun p => proj2 Hr i p)). reflexivity.
Qed.

(** Rows 1 .. 4 of a five row matrix with uneven rows: peeled row, one vector of two, remainder. *)
Definition uneven : list (list (nat * GQ)) :=
  [[(0, z 1 0)]; [(1, z 0 1); (4, z 2 0)]; []; [(0, z 1 1); (2, z 3 0); (3, z 1 0)]; [(1, z 5 0)]].
Example C28_example :
  let f fmt := show (kr_spmv (format_kernel GQ gq_half fmt uneven) 1 5 (map (fun k => z k 0) [1; 2; 3; 4; 5]%Z) (map (fun k => z 0 k) [6; 7; 8; 9; 10]%Z)) in
  let r := Ok [(0, 6); (10, -5); (0, -8); (14, -8); (10, -10)]%Q in
  (f Csr, f EllGeneric, f (EllSimd (fun p => p mod 2 =? 0) 2)) = (r, r, r).
Proof. vm_compute. reflexivity. Qed.

(** Without stored entries the vectorised diagonal kernel reads a column that does not exist, and
    the multiply leaves [y] in place instead of negating it. *)
Theorem C28_refuted : ~ C28_claim.
Proof.
  intros C.
  assert (Hr : in_range GQ [[]] 1) by (split; [reflexivity|]; intros [|[|i]] e H; cbn in H; contradiction).
  destruct (C GQ gq_half [[]] 1 (EllSimd (fun _ => true) 1) Hr ltac:(lia)) as (_ & D & _).
  { intros a s E. injection E as <- <-. lia. }
  specialize (D 0 1 [@k1 GQ] [@k1 GQ] (@k0 GQ) (@k0 GQ) eq_refl eq_refl ltac:(lia) ltac:(lia)). cbn [format_kernel] in D.
  rewrite (proj2 (ell_simd_empty GQ gq_half (fun _ => true) 1 [[]] 1 0 1 [@k1 GQ] [@k1 GQ] ltac:(lia) Hr ltac:(lia)
                    (fun i => match i with 0 => eq_refl | S j => match j with 0 => eq_refl | S _ => eq_refl end end) ltac:(lia))) in D.
  destruct (csr_kernel_ok GQ gq_half [[]] 1 Hr) as (_ & _ & A2 & _). rewrite A2 in D by (auto; lia). discriminate D.
Qed.

(* ------------------------------------------------------------------ C29 *)
(** Whatever the order in which threads take start vectors and deliver results: no step fails, and
    the result is the mean of the moments of the vectors 0 .. v-1. *)
Theorem C29_accumulate : forall (R : scalar) bs M v (inv_v : R) (mom : nat -> list R), 0 < bs -> 0 < v ->
  (forall k, List.length (mom k) = M) -> (v = 1 -> inv_v = k1) -> forall threads d s,
  reach R bs mom (accumulator R) (accumulate R M v inv_v) (start bs v (accumulator R) threads (0, d)) s ->
  (forall o, step R bs mom (accumulator R) (accumulate R M v inv_v) s o -> exists s', o = Ok s') /\
  (finished (accumulator R) s -> exists r, snd (st_coll s) = DVec r /\ List.length r = M /\
     forall n, nth n r k0 = kmul inv_v (ksum (fun k => nth n (mom k) k0) (seq 0 v))).
Proof.
  intros R bs M v inv_v mom H1 H2 H3 H4 threads d s HR.
  destruct (accumulate_result R bs M v inv_v mom H1 H2 H3 threads d s HR) as (A & B). split; [exact A|].
  intros F. destruct (B F) as (r & E & L & Nr). exists r. split; [exact E|]. split; [exact L|]. intros n. rewrite Nr.
  unfold scale, val. destruct (Nat.eqb_spec v 1); [rewrite H4; auto|reflexivity].
Qed.

(** Column [k] of the local density of states belongs to target [k]. *)
Theorem C29_concatenate : forall (R : scalar) bs v (mom : nat -> list R), 0 < bs -> 0 < v -> forall threads d s,
  reach R bs mom (concatenator R) (concatenate R v) (start bs v (concatenator R) threads (0, d)) s ->
  (forall o, step R bs mom (concatenator R) (concatenate R v) s o -> exists s', o = Ok s') /\
  (finished (concatenator R) s -> exists cols, snd (st_coll s) = Some cols /\ List.length cols = v /\
     forall k, k < v -> nth_error cols k = Some (Some (mom k))).
Proof. exact concatenate_result. Qed.

(** Every schedule ends, and an unfinished one can go on. *)
Theorem C29_progress : forall (R : scalar) bs (mom : nat -> list R) C collect (s : state C), ~ finished C s ->
  exists o, step R bs mom C collect s o.
Proof. exact schedule_progress. Qed.

(** A schedule by the numbers of the tasks that make a step; three vectors in batches of two. *)
Fixpoint play {C} (collect : C -> data GQ -> nat -> outcome C) (mom : nat -> list gq) (l : list nat) (s : state C) : outcome (state C) :=
  match l with
  | [] => Ok s
  | i :: l =>
      obind (match nth_error (st_tasks s) i with
             | Some (t, Waiting) => Ok (State (upd (st_tasks s) i (t, Taken (st_count s))) (st_count s + vectors 2 t) (st_coll s))
             | Some (t, Taken idx) => omap (State (upd (st_tasks s) i (t, Done idx)) (st_count s)) (collect (st_coll s) (task_moments GQ 2 mom t idx) idx)
             | _ => UB
             end) (play collect mom l)
  end.
Definition mom3 (k : nat) : list gq := [z (Z.of_nat k) 0; z 1 (10 * Z.of_nat k)].
Definition acc3 (l : list nat) : outcome (list (Q * Q)) :=
  omap (fun s : state (accumulator GQ) => match snd (st_coll s) with DVec r => map see (r : list gq) | _ => [] end)
    (play (accumulate GQ 2 3 (Q2Qc (1 # 3), Q2Qc 0)) mom3 l (start 2 3 (accumulator GQ) 1 (0, DVec []))).
Definition cat3 (l : list nat) : outcome (option (list (option (list (Q * Q))))) :=
  omap (fun s : state (concatenator GQ) => option_map (map (option_map (map see))) (snd (st_coll s) : option (list (option (list gq)))))
    (play (concatenate GQ 3) mom3 l (start 2 3 (concatenator GQ) 1 (0, None))).
Example C29_example :
  map acc3 [[0; 0; 1; 1]; [1; 0; 0; 1]; [1; 0; 1; 0]] = repeat (Ok [(1, 0); (1, 10)]%Q) 3 /\
  map cat3 [[0; 0; 1; 1]; [1; 0; 0; 1]; [1; 0; 1; 0]]
  = repeat (Ok (Some [Some [(0, 0); (1, 0)]; Some [(1, 0); (1, 10)]; Some [(2, 0); (1, 20)]]%Q)) 3.
Proof. vm_compute. auto. Qed.

(** Together with C27: what the user gets from the density of states and its local version. *)
Theorem C29_dos : forall (R : scalar) (half inv_a b : R), kadd half half = k1 ->
  forall N h, 0 < N -> wf_csr N h -> forall al f, usable R inv_a b N h al f ->
  forall num (r : nat -> list R) bs v inv_v threads d oh s, 2 <= num -> (num - 2) mod 4 = 0 ->
  hermitian N (scaled_dense inv_a b (coef h)) -> (forall k, List.length (r k) = N) -> 0 < bs -> 0 < v -> (v = 1 -> inv_v = k1) ->
  optimize R inv_a b h (al_reorder al) (Indices [0] [0]) = Ok oh ->
  let mom k := match dos_column R half (format_kernel R half f) al num oh (r k) with Ok l => l | _ => [] end in
  reach R bs mom (accumulator R) (accumulate R num v inv_v) (start bs v (accumulator R) threads (0, d)) s ->
  finished (accumulator R) s ->
  snd (st_coll s) = DVec (map (fun n => kmul inv_v (ksum (fun k => halved half n
     (braket N (vec (r k)) (cheb N (scaled_dense inv_a b (coef h)) n) (vec (r k)))) (seq 0 v))) (seq 0 num)).
Proof. intros R half inv_a b Hh. exact (f_dos_threads R half Hh inv_a b). Qed.
Theorem C29_ldos : forall (R : scalar) (half inv_a b : R), kadd half half = k1 ->
  forall N h, 0 < N -> wf_csr N h -> forall al f, usable R inv_a b N h al f ->
  forall num idx bs threads d oh s, 2 <= num -> (num - 2) mod 4 = 0 ->
  hermitian N (scaled_dense inv_a b (coef h)) -> idx <> [] -> (forall i, In i idx -> i < N) -> 0 < bs ->
  ldos_start R inv_a b h al idx = Ok oh ->
  let mom k := match ldos_column R half (format_kernel R half f) h al num oh k with Ok l => l | _ => [] end in
  reach R bs mom (concatenator R) (concatenate R (List.length idx)) (start bs (List.length idx) (concatenator R) threads (0, d)) s ->
  finished (concatenator R) s ->
  snd (st_coll s) = Some (map (fun t => Some (map (fun n => halved half n (cheb N (scaled_dense inv_a b (coef h)) n t t)) (seq 0 num))) idx).
Proof. intros R half inv_a b Hh. exact (f_ldos_threads R half Hh inv_a b). Qed.

(* ------------------------------------------------------------------ C30 *)
Definition C30_claim : Prop := forall (R : scalar) (half inv_a b : R), kadd half half = k1 ->
  forall N h, 0 < N -> wf_csr N h -> forall al f, usable R inv_a b N h al f ->
  hermitian N (scaled_dense inv_a b (coef h)) -> forall num, 2 <= num -> (num - 2) mod 4 = 0 -> forall row col : Z,
  kpm_greens R half inv_a b (format_kernel R half f) h al num row col
  = if ((0 <=? row) && (row <? Z.of_nat N) && (0 <=? col) && (col <? Z.of_nat N))%Z
    then Ok (map (fun n => halved half n (cheb N (scaled_dense inv_a b (coef h)) n (Z.to_nat row) (Z.to_nat col))) (seq 0 num))
    else Throw.

(** Negative indices and indices above the size are rejected; accepted in-range requests give the
    element (col, row), which is the requested one when the matrix is real symmetric. *)
Theorem C30_rejected_partial : forall (R : scalar) (half inv_a b : R) kr_of h al num row col,
  (row < 0 \/ Z.of_nat (List.length h) < row \/ col < 0 \/ Z.of_nat (List.length h) < col)%Z ->
  kpm_greens R half inv_a b kr_of h al num row col = Throw.
Proof. exact greens_rejected. Qed.
Theorem C30_transposed : forall (R : scalar) (half inv_a b : R), kadd half half = k1 ->
  forall N h al f num row col, 0 < N -> wf_csr N h -> usable R inv_a b N h al f -> 2 <= num -> (num - 2) mod 4 = 0 ->
  hermitian N (scaled_dense inv_a b (coef h)) -> row < N -> col < N ->
  kpm_greens R half inv_a b (format_kernel R half f) h al num (Z.of_nat row) (Z.of_nat col)
  = Ok (map (fun n => halved half n (cheb N (scaled_dense inv_a b (coef h)) n col row)) (seq 0 num)).
Proof. intros R half inv_a b Hh. exact (greens_element R half Hh inv_a b). Qed.
Theorem C30_element_partial : forall (R : scalar) (half inv_a b : R), kadd half half = k1 ->
  forall N h al f num row col, 0 < N -> wf_csr N h -> usable R inv_a b N h al f -> 2 <= num -> (num - 2) mod 4 = 0 ->
  hermitian N (scaled_dense inv_a b (coef h)) -> row < N -> col < N ->
  (forall i j, i < N -> j < N -> scaled_dense inv_a b (coef h) i j = scaled_dense inv_a b (coef h) j i) ->
  kpm_greens R half inv_a b (format_kernel R half f) h al num (Z.of_nat row) (Z.of_nat col)
  = Ok (map (fun n => halved half n (cheb N (scaled_dense inv_a b (coef h)) n row col)) (seq 0 num)).
Proof.
  intros R half inv_a b Hh N h al f num row col H1 H2 H3 H4 H5 H6 H7 H8 Hs.
  rewrite (greens_element R half Hh inv_a b N h al f num row col H1 H2 H3 H4 H5 H6 H7 H8). apply f_equal. apply map_ext.
  intros n. apply f_equal. apply cheb_sym; auto.
Qed.

Definition chain_greens (row col : Z) : outcome (list (Q * Q)) :=
  show (kpm_greens GQ gq_half (@k1 GQ) (@k0 GQ) (format_kernel GQ gq_half Csr) chain (Algorithm true true) 2 row col).
(** H(0, 1) = 1 + i, but the first moment of the request (0, 1) is 1 - i. *)
Example C30_example_transposed : chain_greens 0 1 = Ok [(0, 0); (1, -1)]%Q.
Proof. vm_compute. reflexivity. Qed.
(** Row 3 of a matrix with three rows is accepted and then read. *)
Example C30_example_bound : chain_greens 3 1 = UB /\ chain_greens 1 3 = UB /\ chain_greens 4 1 = Throw /\ chain_greens (-1) 1 = Throw.
Proof. vm_compute. auto. Qed.

Lemma chain_wf : wf_csr 3 chain.
Proof.
  split; [reflexivity|]. split.
  - intros [|[|[|[|i]]]] e H; cbn in H; repeat destruct H as [<-|H]; cbn; try lia; contradiction.
  - intros [|[|[|[|i]]]]; cbn; repeat constructor; cbn; intuition discriminate.
Qed.
Theorem C30_refuted : ~ C30_claim.
Proof.
  intros C. assert (E : show (kpm_greens GQ gq_half (@k1 GQ) (@k0 GQ) (format_kernel GQ gq_half Csr) chain (Algorithm false false) 2 3 1) = UB) by (vm_compute; reflexivity).
  rewrite (C GQ gq_half (@k1 GQ) (@k0 GQ) gq_half_ok 3 chain ltac:(lia) chain_wf (Algorithm false false) Csr) in E.
  - discriminate E.
  - split; [discriminate|]. discriminate.
  - assert (H : forallb (fun i => forallb (fun j => gq_eqb (gq_conj (scaled_dense (R := GQ) (@k1 GQ) (@k0 GQ) (coef chain) i j))
                   (scaled_dense (R := GQ) (@k1 GQ) (@k0 GQ) (coef chain) j i)) (seq 0 3)) (seq 0 3) = true) by (vm_compute; reflexivity).
    intros i j Hi Hj. rewrite forallb_forall in H. specialize (H i ltac:(apply in_seq; lia)). rewrite forallb_forall in H.
    specialize (H j ltac:(apply in_seq; lia)). apply gq_eqb_eq in H. exact H.
  - lia.
  - reflexivity.
Qed.

(* ------------------------------------------------------------------ C31 *)
Definition two_axes (d : string) : Prop :=
  exists c0 c1, d = String c0 (String c1 EmptyString) /\ In c0 (list_ascii_of_string "xyz") /\ In c1 (list_ascii_of_string "xyz").
Definition C31_claim : Prop := forall d, (two_axes d -> exists p, conductivity_axes d = Ok p) /\ (~ two_axes d -> conductivity_axes d = Throw).

(** What happens for every string. *)
Theorem C31_complete : forall d,
  conductivity_axes d =
  match d with
  | String c0 (String c1 EmptyString) =>
      if is_xyz c0 && is_xyz c1 then Ok (axis c0, axis c1) else if is_xyz c0 || is_xyz c1 then UB else Throw
  | _ => Throw
  end.
Proof. exact directions_complete. Qed.
Theorem C31_partial : forall d, (two_axes d -> exists p, conductivity_axes d = Ok p) /\
  ((forall c, In c (list_ascii_of_string "xyz") -> ~ In c (list_ascii_of_string d)) \/ String.length d <> 2 -> conductivity_axes d = Throw).
Proof.
  assert (X : forall c, In c (list_ascii_of_string "xyz") <-> is_xyz c = true).
  { intros c. unfold is_xyz. rewrite !orb_true_iff, !Ascii.eqb_eq. cbn. intuition (subst; auto). }
  intros d. rewrite directions_complete. split.
  - intros (c0 & c1 & -> & H0 & H1). apply X in H0, H1. rewrite H0, H1. cbn. eauto.
  - destruct d as [|c0 [|c1 [|c2 d]]]; auto. cbn [String.length]. intros [H|H]; [|lia].
    destruct (is_xyz c0) eqn:E0; [apply X in E0; destruct (H c0 E0); cbn; auto|].
    destruct (is_xyz c1) eqn:E1; [apply X in E1; destruct (H c1 E1); cbn; auto|]. reflexivity.
Qed.
(** One valid and one invalid letter: accepted, then a null pointer is followed. *)
Theorem C31_refuted : ~ C31_claim.
Proof.
  intros C. destruct (C "xq"%string) as (_ & H). assert (E : conductivity_axes "xq" = UB) by reflexivity. rewrite E in H.
  assert (N : ~ two_axes "xq"). { intros (c0 & c1 & E1 & _ & H1). injection E1 as <- <-. cbn in H1. intuition discriminate. }
  discriminate (H N).
Qed.
Example C31_example : conductivity_axes "xy" = Ok (0, 1) /\ conductivity_axes "zz" = Ok (2, 2) /\ conductivity_axes "ab" = Throw /\ conductivity_axes "xyz" = Throw.
Proof. auto. Qed.

(* ------------------------------------------------------------------ C32 *)
(** The rounded count is the least one of the form 4 k + 2 not below the request. *)
Theorem C32_rounding : forall n : Z, exists r, round_num_moments n = Some r /\ (n <= r)%Z /\ (2 <= r)%Z /\ ((r - 2) mod 4 = 0)%Z /\
  forall r', (n <= r')%Z -> (2 <= r')%Z -> ((r' - 2) mod 4 = 0)%Z -> (r <= r')%Z.
Proof. exact round_ok. Qed.
Theorem C32_count : forall (R : scalar) (half inv_a b : R), kadd half half = k1 ->
  forall N h, 0 < N -> wf_csr N h -> forall al f, usable R inv_a b N h al f ->
  forall g num alpha beta op, (0 < num)%Z -> List.length alpha = N -> beta = [] \/ List.length beta = N ->
  (forall o, op = Some o -> in_range R o N) -> (beta = [] -> op = None -> hermitian N (scaled_dense inv_a b (coef h))) ->
  exists ms, core_moments R half inv_a b (format_kernel R half f) g h al num alpha beta op = Ok ms /\ Z.of_nat (List.length ms) = num.
Proof.
  intros R half inv_a b Hh N h HN Hw al f Hu g num alpha beta op H1 H2 H3 H4 H5.
  destruct (f_moments R half Hh inv_a b N h HN Hw al f Hu g num alpha beta op ltac:(lia) H2 H3 H4 H5) as (r & _ & E).
  eexists. split; [exact E|]. rewrite map_length, seq_length. lia.
Qed.
Example C32_example : map round_num_moments [1; 2; 3; 6; 7; 100]%Z = map Some [2; 2; 6; 6; 10; 102]%Z.
Proof. reflexivity. Qed.
(** A negative request is not rejected: the result is cut to a negative length. *)
Example C32_example_negative :
  show (kpm_moments GQ gq_half (@k1 GQ) (@k0 GQ) (format_kernel GQ gq_half Csr) one true chain (Algorithm false false) (-1) [z 1 0; z 0 0; z 0 0] [] None) = UB.
Proof. vm_compute. reflexivity. Qed.
(** An empty list of columns breaks the reordering. *)
Example C30_example_no_columns :
  map (fun al => omap (map (map see)) (kpm_greens_vector GQ gq_half (@k1 GQ) (@k0 GQ) (format_kernel GQ gq_half Csr) chain al 2 0 []
                                       : outcome (list (list gq)))) [Algorithm false false; Algorithm true false] = [Ok []; UB].
Proof. vm_compute. reflexivity. Qed.

Print Assumptions C25_reordering.
Print Assumptions C26_moments.
Print Assumptions C27_conductivity.
Print Assumptions C28_refuted.
Print Assumptions C29_dos.
Print Assumptions C30_refuted.
