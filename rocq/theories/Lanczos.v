(* The Lanczos procedure that finds the energy bounds of the KPM, and the eigenvalues of the
   tridiagonal matrix it produces.  Arithmetic is exact; [eps] is the machine epsilon of the type.
   cppcore/include/compute/lanczos.hpp, compute/eigen3/lanczos.hpp, compute/detail.hpp,
   cppcore/src/kpm/Bounds.cpp. *)
From Verif Require Import Base Scalar Kpm RSum Cplx.
From Coq Require Import Reals.
Local Open Scope R_scope.

(** ** compute/eigen3/lanczos.hpp *)
Definition is0 (x : R) : bool := if Req_EM_T x 0 then true else false.
Definition ltb (x y : R) : bool := if Rlt_dec x y then true else false.

(** [Eigen::JacobiRotation::makeGivens] for real numbers: the cosine and sine.  Called at
    eigen3/lanczos.hpp:28-29. *)
Definition make_givens (p q : R) : R * R :=
  if is0 q then (if ltb p 0 then -1 else 1, 0)
  else if is0 p then (0, if ltb q 0 then 1 else -1)
  else if ltb (Rabs q) (Rabs p)
  then let t := q / p in let u0 := sqrt (1 + t * t) in let u := if ltb p 0 then - u0 else u0 in (1 / u, - t * (1 / u))
  else let t := p / q in let u0 := sqrt (1 + t * t) in let u := if ltb q 0 then - u0 else u0 in (- t * (- (1 / u)), - (1 / u)).

(** The shift.  eigen3/lanczos.hpp:10-23 *)
Definition qr_shift (dm de e : R) : R :=
  let td := (dm - de) * (1 / 2) in
  if is0 td then de - Rabs e
  else let h := sqrt (td * td + e * e) in
       if is0 (e * e) then de - (e / (td + (if ltb 0 td then 1 else -1))) * (e / h)
       else de - (e * e) / (td + (if ltb 0 td then h else - h)).

(** One turn of the loop.  eigen3/lanczos.hpp:27-48 *)
Definition qr_turn (start stop : nat) (st : list R * list R * R * R) (k : nat) : outcome (list R * list R * R * R) :=
  let '(d, e, x, z) := st in
  let '(c, s) := make_givens x z in
  obind (aget d k) (fun dk => obind (aget d (k + 1)) (fun dk1 => obind (aget e k) (fun ek =>
  let sdk := s * dk + c * ek in
  let dkp1 := s * ek + c * dk1 in
  let d' := upd (upd d k (c * (c * dk - s * ek) - s * (c * ek - s * dk1))) (k + 1) (s * sdk + c * dkp1) in
  let ek' := c * sdk - s * dkp1 in
  let e1 := upd e k ek' in
  obind (if (start <? k)%nat then obind (aget e1 (k - 1)) (fun p => Ok (upd e1 (k - 1) (c * p - s * z))) else Ok e1) (fun e2 =>
  if (k <? stop - 1)%nat then obind (aget e2 (k + 1)) (fun q => Ok (d', upd e2 (k + 1) (c * q), ek', - s * q))
  else Ok (d', e2, ek', z))))).

(** [tridiagonal_qr_step].  eigen3/lanczos.hpp:9-49 *)
Definition tridiagonal_qr_step (d e : list R) (start stop : nat) : outcome (list R * list R) :=
  obind (aget d (stop - 1)) (fun dm => obind (aget d stop) (fun de => obind (aget e (stop - 1)) (fun ee =>
  let mu := qr_shift dm de ee in
  obind (aget d start) (fun ds => obind (aget e start) (fun es =>
  omap (fun st => (fst (fst (fst st)), snd (fst (fst st))))
       (ofold (qr_turn start stop) (seq start (stop - start)) (d, e, ds - mu, es))))))).

Section Tri.
  Variable eps : R.

  (** eigen3/lanczos.hpp:65-71 *)
  Definition deflate (d : list R) (start stop : nat) (e : list R) : outcome (list R) :=
    ofold (fun e i => obind (aget e i) (fun a => obind (aget d i) (fun d0 => obind (aget d (i + 1)) (fun d1 =>
             Ok (if ltb (Rabs a) ((Rabs d0 + Rabs d1) * eps) then upd e i 0 else e)))))
          (seq start (stop - start)) e.
  (** eigen3/lanczos.hpp:73-74 *)
  Fixpoint shrink (e : list R) (stop : nat) : outcome nat :=
    match stop with
    | O => Ok O
    | S k => obind (aget e k) (fun a => if is0 a then shrink e k else Ok stop)
    end.
  (** eigen3/lanczos.hpp:82-84, with [start = end - 1] at first *)
  Fixpoint block_start (e : list R) (start : nat) : outcome nat :=
    match start with
    | O => Ok O
    | S k => obind (aget e k) (fun a => if is0 a then Ok start else block_start e k)
    end.

  Definition max_iterations : nat := 30.

  (** eigen3/lanczos.hpp:64-87; [None]: out of fuel (excluded by a theorem) *)
  Fixpoint qr_loop (fuel : nat) (d e : list R) (start stop iter : nat) : option (outcome (list R)) :=
    match fuel with
    | O => None
    | S f =>
        if (stop =? 0)%nat then Some (Ok d)
        else match deflate d start stop e with
        | Ok e1 => match shrink e1 stop with
          | Ok stop' =>
              if (stop' =? 0)%nat then Some (Ok d)
              else if (max_iterations * length d <? iter + 1)%nat then Some Throw
              else match block_start e1 (stop' - 1) with
              | Ok start' => match tridiagonal_qr_step d e1 start' stop' with
                | Ok (d', e') => qr_loop f d' e' start' stop' (iter + 1)
                | Throw => Some Throw | UB => Some UB end
              | Throw => Some Throw | UB => Some UB end
          | Throw => Some Throw | UB => Some UB end
        | Throw => Some Throw | UB => Some UB end
    end.

  Definition fuel_for (n : nat) : nat := max_iterations * n + 2.
  (** eigen3/lanczos.hpp:52-90 *)
  Definition tridiagonal_eigenvalues (alpha beta : list R) : outcome (list R) :=
    match qr_loop (fuel_for (length alpha)) alpha beta 0 (length alpha - 1) 0 with Some r => r | None => UB end.

  (** ** compute/lanczos.hpp *)
  (** lanczos.hpp:25-44; [real_dot] of compute/detail.hpp:27-33 *)
  Definition real_dot (a b : CX) : R := fst a * fst b + snd a * snd b.
  Definition lanczos_spmv (b_prev : R) (m : csr CX) (v1 v0 : list CX) : outcome (R * list CX) :=
    ofold (fun st row =>
             obind (aget m row) (fun es =>
             obind (row_mul CX es v1) (fun tmp =>
             obind (aget (snd st) row) (fun y => obind (aget v1 row) (fun x =>
             Ok (fst st + real_dot tmp x, upd (snd st) row (ksub tmp (kmul (re b_prev) y))))))))
          (seq 0 (length m)) (0, v0).

  (** lanczos.hpp:55-65; both builds give the same sums in exact arithmetic *)
  Definition lanczos_axpy (a : R) (v1 v0 : list CX) : outcome (R * list CX) :=
    omap (fun st => (sqrt (fst st), snd st))
      (ofold (fun st i =>
             obind (aget (snd st) i) (fun y => obind (aget v1 i) (fun x =>
             let l := ksub y (kmul (re a) x) in Ok (fst st + abs2 l, upd (snd st) i l))))
          (seq 0 (length v0)) (0, v0)).

  Definition min_coeff (l : list R) : outcome R := match l with [] => UB | x :: t => Ok (fold_left Rmin t x) end.
  Definition max_coeff (l : list R) : outcome R := match l with [] => UB | x :: t => Ok (fold_left Rmax t x) end.

  (** [abs((previous - x) / x) < precision]; no previous value (the largest number) and division by
      zero (infinite or not a number) do not count as converged.  lanczos.hpp:142-143 *)
  Definition converged (precision : R) (previous : option R) (x : R) : bool :=
    match previous with
    | None => false
    | Some p => if is0 x then false else ltb (Rabs ((p - x) / x)) precision
    end.

  (** One turn of the loop up to the test.  lanczos.hpp:123-141 *)
  Record lstate := LState { l_v0 : list CX; l_v1 : list CX; l_alpha : list R; l_beta : list R; l_prev : option (R * R) }.
  Definition lanczos_turn (m : csr CX) (st : lstate) : outcome (lstate * R * R) :=
    let b_prev := last (l_beta st) 0 in
    obind (lanczos_spmv b_prev m (l_v1 st) (l_v0 st)) (fun r =>
    obind (lanczos_axpy (fst r) (l_v1 st) (snd r)) (fun q =>
    let '(a, b) := (fst r, fst q) in
    let v0 := map (fun y => kmul (re (1 / b)) y) (snd q) in
    let alpha := l_alpha st ++ [a] in
    let beta := l_beta st ++ [b] in
    obind (tridiagonal_eigenvalues alpha beta) (fun ev =>
    obind (min_coeff ev) (fun lo => obind (max_coeff ev) (fun hi =>
    Ok (LState (l_v1 st) v0 alpha beta (Some (lo, hi)), lo, hi)))))).

  (** lanczos.hpp:114-153.  Continuing after [b = 0] (division by zero in [1 / b]: the next vector is
      not a number) is [UB]. *)
  Fixpoint lanczos_loop (limit i : nat) (m : csr CX) (precision : R) (st : lstate) : outcome (R * R * nat) :=
    match limit with
    | O => Throw
    | S k =>
        obind (lanczos_turn m st) (fun r =>
        let '(st', lo, hi) := r in
        if converged precision (option_map fst (l_prev st)) lo && converged precision (option_map snd (l_prev st)) hi
        then Ok (lo, hi, i)
        else if is0 (last (l_beta st') 0) then UB
        else lanczos_loop k (i + 1) m precision st')
    end.

  (** [v.normalize()]: unchanged if the norm is zero *)
  Definition normalize (v : list CX) : list CX :=
    let n := fold_right Rplus 0 (map abs2 v) in
    if ltb 0 n then map (fun x => kmul (re (1 / sqrt n)) x) v else v.

  Definition loop_limit : nat := 1000.
  (** lanczos.hpp:99-154; [start] are the random numbers, one for each row *)
  Definition minmax_eigenvalues (m : csr CX) (start : list CX) (precision_percent : R) : outcome (R * R * nat) :=
    lanczos_loop loop_limit 0 m (precision_percent / 100)
      (LState (repeat k0 (length m)) (normalize start) [] [] None).
End Tri.
