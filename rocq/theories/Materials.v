(* The material repository: pybinding/repository/graphene/{constants,lattice}.py, phosphorene.py,
   group6_tmd.py, and the loops of pybinding/lattice.py they use.  Every function is the list of
   calls it makes on the C++ lattice object (Lattice.v).  Names of sublattices and hopping
   families are numbers.  Energies given as floats are elements of the scalar that equal their
   conjugate; lengths are real numbers. *)
From Verif Require Import Base Scalar Foundation Lattice Cplx.
From Coq Require Import Reals.
Local Open Scope R_scope.

Definition vec3 := (R * R * R)%type.
Record material (K : scalar) := Material { mt_vectors : list vec3; mt_calls : list (lcall K vec3) }.
Arguments Material {K}. Arguments mt_vectors {K}. Arguments mt_calls {K}.

(** The Python function stops at the first call that raises. *)
Definition run_call {K P} offset_ok order (acc : option (lattice K P)) (c : lcall K P) : option (lattice K P) :=
  match acc with
  | Some l => let r := call offset_ok order c l in if snd r then Some (fst r) else None
  | None => None
  end.
Definition run {K P} offset_ok order (cs : list (lcall K P)) : option (lattice K P) :=
  fold_left (run_call offset_ok order) cs (Some new_lattice).

(** [np.asarray(energy)] of a number *)
Definition single {K : scalar} (e : K) : mat K := Mat 1 1 (fun _ _ => e).

(** lattice.py:117-118 [register_hopping_energies]: sorted by name; the lists below are in that order *)
Definition register {K : scalar} (fs : list (name * K)) : list (lcall K vec3) := map (fun f => RegisterHopping (fst f) (single (snd f))) fs.
(** lattice.py:167-168 and 248-249 *)
Definition subs {K : scalar} (ss : list (name * vec3 * K)) : list (lcall K vec3) :=
  map (fun s => AddSublattice (fst (fst s)) (snd (fst s)) (single (snd s))) ss.
Definition hops {K : scalar} (hs : list (Z * Z * name * name * name)) : list (lcall K vec3) :=
  map (fun h => let '(i, j, a, b, f) := h in AddHopping (I3 i j 0) a b f) hs.
Definition hops_energy {K : scalar} (e : K) (hs : list (Z * Z * name * name)) : list (lcall K vec3) :=
  map (fun h => let '(i, j, a, b) := h in AddHoppingEnergy (I3 i j 0) a b (single e)) hs.

(** constants.py:3-4 *)
Definition g_a : R := 24595 / 100000.
Definition g_acc : R := 142 / 1000.

Section Graphene.
  Variable K : scalar.
  Local Open Scope k_scope.
  Definition three (x : K) : K := x + x + x.

  (** graphene/lattice.py:6-66.  A and B are 0 and 1; t, t_nn, t_nnn are 0, 1, 2. *)
  Definition monolayer (n : Z) (onA onB t tnn tnnn : K) : option (material K) :=
    let off := if (n <? 2)%Z then k0 else three tnn in
    let A := Nm 0 in let B := Nm 1 in let T := Nm 0 in let T2 := Nm 1 in let T3 := Nm 2 in
    if (4 <=? n)%Z then None else
    Some (Material [(g_a, 0, 0); (g_a / 2, g_a / 2 * sqrt 3, 0)]%R
      (subs [(A, (0, - g_acc / 2, 0)%R, onA + off); (B, (0, g_acc / 2, 0)%R, onB + off)]
       ++ register [(T, t); (T2, tnn); (T3, tnnn)]
       ++ hops [(0, 0, A, B, T); (1, -1, A, B, T); (0, -1, A, B, T)]%Z
       ++ (if (2 <=? n)%Z then hops [(0, -1, A, A, T2); (0, -1, B, B, T2); (1, -1, A, A, T2); (1, -1, B, B, T2);
                                     (1, 0, A, A, T2); (1, 0, B, B, T2)]%Z else [])
       ++ (if (3 <=? n)%Z then hops [(1, -2, A, B, T3); (1, 0, A, B, T3); (-1, 0, A, B, T3)]%Z else [])
       ++ [SetMinNeighbors 2])).

  (** graphene/lattice.py:69-91; [t] is the constant of constants.py *)
  Definition monolayer_alt (onA onB t : K) : material K :=
    let A := Nm 0 in let B := Nm 1 in
    Material [(g_a / 2, g_a / 2 * sqrt 3, 0); (g_a / 2, - (g_a / 2) * sqrt 3, 0)]%R
      (subs [(A, (0, 0, 0)%R, onA); (B, (0, g_acc, 0)%R, onB)]
       ++ hops_energy t [(0, 0, A, B); (0, 1, A, B); (-1, 0, A, B)]%Z ++ [SetMinNeighbors 2]).

  (** graphene/lattice.py:94-124; A2 and B2 are 2 and 3 *)
  Definition monolayer_4atom (onA onB t : K) : material K :=
    let A := Nm 0 in let B := Nm 1 in let A2 := Nm 2 in let B2 := Nm 3 in
    Material [(g_a, 0, 0); (0, 3 * g_acc, 0)]%R
      (subs [(A, (0, - g_acc / 2, 0)%R, onA); (B, (0, g_acc / 2, 0)%R, onB)]
       ++ [AddAlias A2 A (g_a / 2, g_acc, 0)%R; AddAlias B2 B (g_a / 2, 2 * g_acc, 0)%R]
       ++ hops_energy t [(0, 0, A, B); (0, 0, B, A2); (0, 0, A2, B2); (-1, -1, A, B2); (0, -1, A, B2); (-1, 0, B, A2)]%Z
       ++ [SetMinNeighbors 2]).

  (** graphene/lattice.py:127-195; A1, B1, A2, B2 are 0..3 and gamma0, 1, 3, 4 are 0..3 *)
  Definition g_c0 : R := 335 / 1000.
  Definition bilayer (gamma3 gamma4 : bool) (on1 on2 on3 on4 g0 g1 g3 g4 : K) : material K :=
    let A1 := Nm 0 in let B1 := Nm 1 in let A2 := Nm 2 in let B2 := Nm 3 in
    let G0 := Nm 0 in let G1 := Nm 1 in let G3 := Nm 2 in let G4 := Nm 3 in
    Material [(g_a / 2, g_a / 2 * sqrt 3, 0); (- g_a / 2, g_a / 2 * sqrt 3, 0)]%R
      (subs [(A1, (0, - g_acc / 2, 0)%R, on1); (B1, (0, g_acc / 2, 0)%R, on2);
             (A2, (0, g_acc / 2, - g_c0)%R, on3); (B2, (0, 3 * g_acc / 2, - g_c0)%R, on4)]
       ++ register [(G0, g0); (G1, g1); (G3, g3); (G4, g4)]
       ++ hops [(0, 0, A1, B1, G0); (0, -1, A1, B1, G0); (-1, 0, A1, B1, G0);
                (0, 0, A2, B2, G0); (0, -1, A2, B2, G0); (-1, 0, A2, B2, G0); (0, 0, B1, A2, G1)]%Z
       ++ (if gamma3 then hops [(0, 1, B2, A1, G3); (1, 0, B2, A1, G3); (1, 1, B2, A1, G3)]%Z else [])
       ++ (if gamma4 then hops [(0, 0, A2, A1, G4); (0, 1, A2, A1, G4); (1, 0, A2, A1, G4)]%Z else [])
       ++ [SetMinNeighbors 2]).

  (** phosphorene.py:6-63; A, B, C, D are 0..3 and t1..t5 are 1..5.  The function raises for other
      numbers of hoppings. *)
  Definition p_a : R := 222 / 1000.
  Definition p_ax : R := 438 / 1000.
  Definition p_ay : R := 332 / 1000.
  Definition p_theta : R := 9679 / 100 * (PI / 180).
  Definition p_phi : R := 10369 / 100 * (PI / 180).
  Definition p_h : R := p_a * sin (p_phi - PI / 2).
  Definition p_s : R := 1 / 2 * p_ax - p_a * cos (p_theta / 2).
  Definition phosphorene (n : Z) (z t1 t2 t3 t4 t5 : K) : option (material K) :=
    let A := Nm 0 in let B := Nm 1 in let C := Nm 2 in let D := Nm 3 in
    let T1 := Nm 1 in let T2 := Nm 2 in let T3 := Nm 3 in let T4 := Nm 4 in let T5 := Nm 5 in
    if (n <? 2)%Z then None else if (5 <? n)%Z then None else
    Some (Material [(p_ax, 0, 0); (0, p_ay, 0)]%R
      (subs [(A, (- p_s / 2, - p_ay / 2, p_h)%R, z); (B, (p_s / 2, - p_ay / 2, 0)%R, z);
             (C, (- p_s / 2 + p_ax / 2, 0, 0)%R, z); (D, (p_s / 2 + p_ax / 2, 0, p_h)%R, z)]
       ++ register [(T1, t1); (T2, t2); (T3, t3); (T4, t4); (T5, t5)]
       ++ hops [(-1, 0, A, D, T1); (-1, -1, A, D, T1); (0, 0, B, C, T1); (0, -1, B, C, T1)]%Z
       ++ hops [(0, 0, A, B, T2); (0, 0, C, D, T2)]%Z
       ++ (if (3 <=? n)%Z then hops [(0, 0, A, D, T3); (0, -1, A, D, T3); (1, 1, C, B, T3); (1, 0, C, B, T3)]%Z else [])
       ++ (if (4 <=? n)%Z then hops [(0, 0, A, C, T4); (0, -1, A, C, T4); (-1, 0, A, C, T4); (-1, -1, A, C, T4);
                                     (0, 0, B, D, T4); (0, -1, B, D, T4); (-1, 0, B, D, T4); (-1, -1, B, D, T4)]%Z else [])
       ++ (if (5 <=? n)%Z then hops [(-1, 0, A, B, T5); (-1, 0, C, D, T5)]%Z else [])
       ++ [SetMinNeighbors 2])).
End Graphene.
Arguments monolayer {K}. Arguments monolayer_alt {K}. Arguments monolayer_4atom {K}. Arguments bilayer {K}. Arguments phosphorene {K}.
Arguments three {K}.

(** Nested Python lists as matrices. *)
Definition rmat (rows : list (list R)) : mat CX :=
  Mat (length rows) (length (hd [] rows)) (fun i j => re (nth j (nth i rows []) 0)).

(** group6_tmd.py:83-111.  [eps2] twice is the list of orbital energies on the diagonal
    (Lattice.cpp:34-36 via the overload for a vector). *)
Definition tmd_h1 (t0 t1 t2 t11 t12 t22 : R) : list (list R) :=
  [[t0; - t1; t2]; [t1; t11; - t12]; [t2; t12; t22]].
Definition tmd_h2 (t0 t1 t2 t11 t12 t22 : R) : list (list R) :=
  let rt3 := sqrt 3 in
  [[t0; 1/2 * t1 + rt3/2 * t2; rt3/2 * t1 - 1/2 * t2];
   [-1/2 * t1 + rt3/2 * t2; 1/4 * t11 + 3/4 * t22; rt3/4 * (t11 - t22) - t12];
   [- rt3/2 * t1 - 1/2 * t2; rt3/4 * (t11 - t22) + t12; 3/4 * t11 + 1/4 * t22]].
Definition tmd_h3 (t0 t1 t2 t11 t12 t22 : R) : list (list R) :=
  let rt3 := sqrt 3 in
  [[t0; -1/2 * t1 - rt3/2 * t2; rt3/2 * t1 - 1/2 * t2];
   [1/2 * t1 - rt3/2 * t2; 1/4 * t11 + 3/4 * t22; rt3/4 * (t22 - t11) + t12];
   [- rt3/2 * t1 - 1/2 * t2; rt3/4 * (t22 - t11) - t12; 3/4 * t11 + 1/4 * t22]].
Definition tmd (a eps1 eps2 t0 t1 t2 t11 t12 t22 : R) : material CX :=
  let m := Nm 0 in
  Material [(a, 0, 0); (1/2 * a, sqrt 3 / 2 * a, 0)]
    [AddSublattice m (0, 0, 0) (rmat [[eps1; 0; 0]; [0; eps2; 0]; [0; 0; eps2]]);
     AddHoppingEnergy (I3 1 0 0) m m (rmat (tmd_h1 t0 t1 t2 t11 t12 t22));
     AddHoppingEnergy (I3 0 (-1) 0) m m (rmat (tmd_h2 t0 t1 t2 t11 t12 t22));
     AddHoppingEnergy (I3 1 (-1) 0) m m (rmat (tmd_h3 t0 t1 t2 t11 t12 t22))].
