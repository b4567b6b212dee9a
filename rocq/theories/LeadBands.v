(* pybinding/leads.py:58-85 [Lead.calc_bands]: the matrix diagonalised for every point of the path.
   [z] is exp(i k) and [z'] is exp(-i k); matrices are read element by element ([todense]). *)
From Verif Require Import Base Scalar Hamiltonian.
Definition lead_bloch {R : scalar} (h0 h1 : sparse R) (z z' : R) (i j : nat) : R :=
  kadd (kadd (coeff h0 i j) (kmul (coeff h1 i j) z)) (kmul (kconj (coeff h1 j i)) z').
