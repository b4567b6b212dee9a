(* Model of the class Sweep of pybinding/results.py:771-1012: indexing, cropping, mirroring and saving. *)
From Verif Require Import Base StructureSlice.
From Coq Require Import QArith.
Local Open Scope nat_scope.

(** results.py:788-791; [data] is a two-dimensional array: its rows *)
Record sweep (D : Type) := { w_x : list Q; w_y : list Q; w_data : list (list D) }.
Arguments w_x {D}. Arguments w_y {D}. Arguments w_data {D}. Arguments Build_sweep {D}.

(** The index of one axis: a single integer, or an index that keeps the axis *)
Inductive axis_index := One (z : Z) | Many (i : index).

Definition is_slice (i : index) : bool := match i with Slice _ _ _ => true | _ => false end.

(** Positions of one axis, for the 1D arrays [self.x[idx_x]]: a scalar becomes an array of one element in
    [np.atleast_1d] (results.py:789-790) *)
Definition axis_positions (n : nat) (i : axis_index) : outcome (list nat) :=
  match i with One z => omap (fun k => [k]) (norm_int n z) | Many i => resolve n i end.

(** the outer product of positions *)
Definition outer {D} (m : list (list D)) (kx ky : list nat) : list (list D) := map (fun k => pick (nth k m []) ky) kx.

(** pairs of positions *)
Fixpoint paired {D} (m : list (list D)) (ps : list (nat * nat)) : list D :=
  match ps with
  | [] => []
  | (i, j) :: t => match nth_error (nth i m []) j with Some d => d :: paired m t | None => paired m t end
  end.

(** numpy broadcasting of two index arrays *)
Definition broadcast (a b : list nat) : outcome (list (nat * nat)) :=
  if Nat.eqb (length a) (length b) then Ok (combine a b)
  else if Nat.eqb (length a) 1 then Ok (map (fun j => (nth 0 a 0, j)) b)
  else if Nat.eqb (length b) 1 then Ok (map (fun i => (i, nth 0 b 0)) a)
  else Throw.

(** [np.atleast_2d(self.data[idx_x, idx_y])]: a one-dimensional result becomes a single row, a scalar a
    single element.  Integers together with an array are broadcast like arrays. *)
Definition data_get {D} (m : list (list D)) (ix iy : axis_index) (kx ky : list nat) : outcome (list (list D)) :=
  match ix, iy with
  | One _, One _ => Ok [paired m (combine kx ky)]
  | One _, Many _ => Ok [paired m (map (fun j => (nth 0 kx 0, j)) ky)]
  | Many _, One _ => Ok [paired m (map (fun i => (i, nth 0 ky 0)) kx)]
  | Many i, Many j => if is_slice i || is_slice j then Ok (outer m kx ky)
                      else omap (fun ps => [paired m ps]) (broadcast kx ky)
  end.

(** results.py:796-803 [Sweep.__getitem__]; one index stands for the first axis *)
Definition sweep_get {D} (w : sweep D) (ix : axis_index) (iy : option axis_index) : outcome (sweep D) :=
  let iy := match iy with Some i => i | None => Many (Slice None None 1) end in
  obind (axis_positions (length (w_x w)) ix) (fun kx =>
  obind (axis_positions (length (w_y w)) iy) (fun ky =>
  omap (fun d => Build_sweep (pick (w_x w) kx) (pick (w_y w) ky) d) (data_get (w_data w) ix iy kx ky))).

(** results.py:814-818 [_xy_grids]; stacking no arrays raises *)
Definition x_grid {D} (w : sweep D) : outcome (list (list Q)) :=
  match w_y w with [] => Throw | _ => Ok (map (fun x => map (fun _ => x) (w_y w)) (w_x w)) end.
Definition y_grid {D} (w : sweep D) : outcome (list (list Q)) :=
  match w_x w with [] => Throw | _ => Ok (map (fun _ => w_y w) (w_x w)) end.

(** results.py:820-833 [save_txt]: the rows of the file *)
Definition text_rows {D} (w : sweep D) : outcome (list (Q * Q * D)) :=
  obind (x_grid w) (fun gx => omap (fun gy => combine (combine (concat gx) (concat gy)) (concat (w_data w))) (y_grid w)).

(** results.py:835-851 [cropped]: closed limits; no limits keep the axis *)
Definition crop_axis (v : list Q) (lim : option (Q * Q)) : list nat :=
  match lim with
  | None => seq 0 (length v)
  | Some (lo, hi) => true_positions 0 (map (fun x => Qle_bool lo x && Qle_bool x hi) v)
  end.
Definition sweep_cropped {D} (w : sweep D) (x y : option (Q * Q)) : sweep D :=
  let kx := crop_axis (w_x w) x in
  let ky := crop_axis (w_y w) y in
  Build_sweep (pick (w_x w) kx) (pick (w_y w) ky) (outer (w_data w) kx ky).

(** results.py:853-875 [mirrored]; an unknown axis makes an exception object but does not raise it: the
    result is [None] *)
Inductive mirror_axis := MX | MY | MOther.
Definition mirrored {D} (w : sweep D) (a : mirror_axis) : option (sweep D) :=
  match a with
  | MX => Some (Build_sweep (map Qopp (rev (w_x w)) ++ tl (w_x w)) (w_y w) (rev (w_data w) ++ tl (w_data w)))
  | MY => Some (Build_sweep (w_x w) (map Qopp (rev (w_y w)) ++ tl (w_y w)) (map (fun r => rev r ++ tl r) (w_data w)))
  | MOther => None
  end.

(** results.py:997-1015 [_slice_x], [_slice_y]: the data nearest to a value *)
Definition Qabs' (q : Q) : Q := if Qle_bool 0 q then q else Qopp q.
Definition slice_x {D} (w : sweep D) (v : Q) : outcome (list D * Q) :=
  obind (argmin (map (fun x => Some (Qabs' (x - v)%Q)) (w_x w))) (fun i => Ok (nth i (w_data w) [], nth i (w_x w) 0%Q)).
