(* Model of the printing of durations and large numbers: cppcore/src/utils/Chrono.cpp,
   cppcore/include/support/format.hpp, pybinding/utils/time.py, pybinding/utils/misc.py. *)
From Verif Require Import Base.
From Coq Require Import QArith Qround.
Local Open Scope Z_scope.

(** A printed text as a list of pieces.  [Fixed k n]: n / 10^k written with k decimals; [Two n]: at
    least two digits, filled with zeros ([{:02}]); [Expo]: a number in exponent notation. *)
Inductive piece := Fixed (k : nat) (n : Z) | Two (n : Z) | Ms | Sec | Colon | Suffix (e : nat) | Expo.
Definition text := list piece.

(** [{:.kf}] rounds the exact value to the nearest, to even in the middle. *)
Definition nearest (q : Q) : Z :=
  let f := Qfloor q in
  match Qcompare (q - inject_Z f) (1 # 2) with
  | Lt => f
  | Gt => f + 1
  | Eq => if Z.even f then f else f + 1
  end.
Definition fixed (k : nat) (q : Q) : piece := Fixed k (nearest (q * inject_Z (10 ^ Z.of_nat k))).

(** Chrono.cpp:6-34 [Chrono::str] for [ns] nanoseconds.  The conversion of the count to float before the
    rounding is left out.  [duration_cast] to whole units cuts off. *)
Definition second : Z := 10 ^ 9.
Definition millisecond : Z := 10 ^ 6.
Definition chrono_str (ns : Z) : text :=
  let q := inject_Z ns in
  if ns <? millisecond then [fixed 2 (q / inject_Z millisecond); Ms]
  else if ns <? 10 * millisecond then [fixed 1 (q / inject_Z millisecond); Ms]
  else if ns <? 100 * millisecond then [Fixed 0 (Z.quot ns millisecond); Ms]
  else if ns <? 10 * second then [fixed 2 (q / inject_Z second); Sec]
  else if ns <? 20 * second then [fixed 1 (q / inject_Z second); Sec]
  else if ns <? 60 * second then [Fixed 0 (Z.quot ns second); Sec]
  else
    let min := Z.quot ns (60 * second) in
    let sec := Z.quot ns second - 60 * min in
    if min <? 60 then [Fixed 0 min; Colon; Two sec]
    else let hr := Z.quot min 60 in [Fixed 0 hr; Colon; Two (min - 60 * hr); Colon; Two sec].

(** time.py:58-115 [pretty_duration], exact arithmetic instead of doubles.  [x // 60] rounds down, [int]
    cuts off. *)
Definition py_int (q : Q) : Z := if Qlt_le_dec q 0 then Qceiling q else Qfloor q.
Definition below (a b : Q) : bool := if Qlt_le_dec a b then true else false.
Definition pretty_duration (seconds : Q) : text :=
  let ms := (seconds * inject_Z 1000)%Q in
  if below ms 1 then [fixed 2 ms; Ms]
  else if below ms (inject_Z 10) then [fixed 1 ms; Ms]
  else if below ms (inject_Z 100) then [fixed 0 ms; Ms]
  else if below seconds (inject_Z 10) then [fixed 2 seconds; Sec]
  else if below seconds (inject_Z 20) then [fixed 1 seconds; Sec]
  else if below seconds (inject_Z 60) then [fixed 0 seconds; Sec]
  else
    let minutes := Qfloor (seconds / inject_Z 60) in
    let sec := py_int (seconds - inject_Z minutes * inject_Z 60) in
    if minutes <? 60 then [Fixed 0 minutes; Colon; Two sec]
    else let hours := Qfloor (inject_Z minutes / inject_Z 60) in
      [Fixed 0 hours; Colon; Two (minutes - 60 * hours); Colon; Two sec].

(** [{:.3g}] of a positive number: the decimal exponent of the number rounded to three digits decides the
    notation.  [Fixed k n] here stands for n / 10^k with zeros at the end left out. *)
Definition decade (q : Q) (e : Z) : bool :=
  below (q * inject_Z (10 ^ (2 - e))) (1999 # 2).
Definition three_digits (q : Q) : piece :=
  match find (decade q) [-1; 0; 1; 2] with
  | Some e => fixed (Z.to_nat (2 - e)) q
  | None => Expo
  end.
(** format.hpp:10-27 and misc.py:125-131 with base 1000, for numbers of at least 0.1 *)
Definition with_suffix (number : Q) : text :=
  let over e := below ((999 # 1000) * inject_Z (10 ^ e)) number in
  match find over [9; 6; 3] with
  | Some e => [three_digits (number / inject_Z (10 ^ e)); Suffix (Z.to_nat e)]
  | None => [three_digits number]
  end.
