(* C63: the graphene lattice lists exactly the neighbours of each shell. *)
From Coq Require Import Reals Lra Lia ZArith.
From Verif Require Import Base Scalar Foundation Lattice FoundationSpec Hamiltonian BulkSpec Cplx Materials MaterialsSpec MaterialsProofs GrapheneProofs.
Local Open Scope R_scope.

(** ** Specification *)
Definition within (r d2 : R) : bool := if Rle_dec d2 (r * r) then true else false.
(** Energy of a hopping over the given squared distance, with [n] shells of neighbours.  The shells
    of graphene have the radii 0.142, 0.246, 0.284 and 0.376 nm. *)
Definition shell_energy {K : scalar} (n : Z) (t tnn tnnn : K) (d2 : R) : K :=
  if within (1 / 100) d2 then k0
  else if within (15 / 100) d2 then t
  else if within (25 / 100) d2 then (if (2 <=? n)%Z then tnn else k0)
  else if within (30 / 100) d2 then (if (3 <=? n)%Z then tnnn else k0)
  else k0.

Lemma within_yes : forall r d2, d2 <= r * r -> within r d2 = true.
Proof. intros. unfold within. destruct (Rle_dec _ _); [reflexivity|contradiction]. Qed.
Lemma within_no : forall r d2, r * r < d2 -> within r d2 = false.
Proof. intros. unfold within. destruct (Rle_dec _ _); [lra|reflexivity]. Qed.

Lemma shell_of_el : forall (K : scalar) n (t tnn tnnn : K) a b p q, (a < 2)%nat -> (b < 2)%nat ->
  mono_el K n t tnn tnnn a b p q = shell_energy n t tnn tnnn (if (a =? b)%nat then d_same p q else if (a =? 0)%nat then d_AB p q else d_AB (- p) (- q)).
Proof.
  intros K n t tnn tnnn a b p q Ha Hb. unfold mono_el. destruct (a =? b)%nat.
  - destruct (shells_same p q) as [(-> & -> & E)|[(E & D)|(E & D)]].
    + rewrite E. unfold shell_energy. rewrite within_yes by lra. cbn. rewrite Bool.andb_false_r. reflexivity.
    + rewrite E, Bool.andb_true_r. unfold shell_energy. rewrite (within_no (1/100)), (within_no (15/100)) by lra. rewrite within_yes by lra. reflexivity.
    + unfold shell_energy. rewrite !within_no by lra. cbn [in2 existsb] in E. apply Bool.orb_false_iff in E. destruct E as [_ E]. fold (in2 nn2 p q) in E. rewrite E, Bool.andb_false_r. reflexivity.
  - destruct (if (a =? 0)%nat then (p, q) else (- p, - q)%Z) as [p' q'] eqn:EP.
    replace (if (a =? 0)%nat then d_AB p q else d_AB (- p) (- q)) with (d_AB p' q') by (destruct (a =? 0)%nat; injection EP as <- <-; reflexivity).
    destruct (shells_AB p' q') as [(E & D)|[(E & D)|(E & D)]].
    + rewrite E. unfold shell_energy. rewrite (within_no (1/100)) by lra. rewrite within_yes by lra. reflexivity.
    + assert (E1 : in2 nn1 p' q' = false).
      { apply Bool.not_true_is_false. intros C. destruct (shells_AB p' q') as [(_ & D')|[(_ & D')|(E' & D')]]; try lra.
        unfold in2, nn1, nn3 in *. cbn [existsb fst snd] in *. rewrite !Bool.orb_true_iff, !Bool.andb_true_iff, !Z.eqb_eq in *. lia. }
      rewrite E, E1, Bool.andb_true_r. unfold shell_energy. rewrite (within_no (1/100)), (within_no (15/100)), (within_no (25/100)) by lra. rewrite within_yes by lra. reflexivity.
    + unfold in2 in E. rewrite existsb_app in E. apply Bool.orb_false_iff in E. destruct E as [E1 E3]. fold (in2 nn1 p' q') in E1. fold (in2 nn3 p' q') in E3.
      rewrite E1, E3, Bool.andb_false_r. unfold shell_energy. rewrite !within_no by lra. reflexivity.
Qed.

(** The lattice with [n] <= 3 shells is accepted, every pair of atoms of the infinite sheet closer
    than 0.37 nm is in one of the shells, and the element between any two atoms is the energy of
    their shell.  More shells are refused. *)
Theorem C63 : forall (K : scalar) offset_ok order n (onA onB t tnn tnnn : K),
  real_energy onA -> real_energy onB -> real_energy t -> real_energy tnn -> real_energy tnnn ->
  ((4 <= n)%Z -> monolayer n onA onB t tnn tnnn = None) /\
  ((n <= 3)%Z -> exists m l, monolayer n onA onB t tnn tnnn = Some m /\ run offset_ok order (mt_calls m) = Some l /\ l_min l = 2%Z /\ length (l_subs l) = 2%nat /\
    forall x y, site2 2 x -> site2 2 y ->
      hopping l x y = shell_energy n t tnn tnnn (dist2 (atom m l x) (atom m l y)) /\
      (x <> y -> (exists r, In r [142; 246; 284]%Z /\ (IZR r - 1/2) / 1000 * ((IZR r - 1/2) / 1000) < dist2 (atom m l x) (atom m l y) < (IZR r + 1/2) / 1000 * ((IZR r + 1/2) / 1000))
                 \/ 37/100 * (37/100) < dist2 (atom m l x) (atom m l y))).
Proof.
  intros K oo order n onA onB t tnn tnnn RA RB Rt Rtn Rtnn. split.
  { intros H. unfold monolayer. destruct (Z.leb_spec 4 n); [reflexivity|lia]. }
  intros H. destruct (monolayer n onA onB t tnn tnnn) as [m|] eqn:E.
  2:{ unfold monolayer in E. destruct (Z.leb_spec 4 n); [lia|discriminate]. }
  destruct (mono_run K oo order n onA onB t tnn tnnn m RA RB Rtn E) as (_ & EV & ER).
  eexists m, _. split; [reflexivity|]. split; [exact ER|]. split; [reflexivity|]. split; [reflexivity|]. intros x y Sx Sy.
  assert (D : forall a b c d, (a < 2)%nat -> (b < 2)%nat -> iz c = 0%Z -> iz d = 0%Z ->
    dist2 (atom m (Lat [Sub (Nm 0) (0, - g_acc / 2, 0) (hermitian_view (single (kadd onA (if (n <? 2)%Z then k0 else three tnn)))) 0 0;
       Sub (Nm 1) (0, g_acc / 2, 0) (hermitian_view (single (kadd onB (if (n <? 2)%Z then k0 else three tnn)))) 1 1] (mono_fams K n t tnn tnnn) None 2) (c, a))
      (atom m (Lat [Sub (Nm 0) (0, - g_acc / 2, 0) (hermitian_view (single (kadd onA (if (n <? 2)%Z then k0 else three tnn)))) 0 0;
       Sub (Nm 1) (0, g_acc / 2, 0) (hermitian_view (single (kadd onB (if (n <? 2)%Z then k0 else three tnn)))) 1 1] (mono_fams K n t tnn tnnn) None 2) (d, b))
    = let p := (ix d - ix c)%Z in let q := (iy d - iy c)%Z in if (a =? b)%nat then d_same p q else if (a =? 0)%nat then d_AB p q else d_AB (- p) (- q)).
  { intros a b c d Ha Hb Hc Hd. unfold atom, corner. cbn [fst snd]. rewrite EV, Hc, Hd.
    destruct a as [|[|a]]; [| |lia]; destruct b as [|[|b]]; try lia; cbn; unfold dist2, d_same, d_AB, vadd, vscale, v0, vx, vy, vz; cbn [fst snd]; rewrite ?opp_IZR, !minus_IZR; field. }
  destruct x as [c a], y as [d b], Sx as [Zx Hx], Sy as [Zy Hy]. cbn [fst snd] in *. rewrite (D a b c d Hx Hy Zx Zy). cbv zeta. split.
  - unfold hopping. cbn [l_fams]. rewrite mono_bulk by (try assumption; split; assumption). cbn [fst snd]. apply shell_of_el; assumption.
  - intros Nxy. destruct (a =? b)%nat eqn:Eab.
    + apply Nat.eqb_eq in Eab. destruct (shells_same (ix d - ix c) (iy d - iy c)) as [(P & Q & _)|[(_ & U)|(_ & U)]].
      * exfalso. apply Nxy. destruct c, d; cbn in *. repeat f_equal; try lia.
      * left. exists 246%Z. split; [right; left; reflexivity|]. lra.
      * right. exact U.
    + set (p' := if (a =? 0)%nat then (ix d - ix c)%Z else (- (ix d - ix c))%Z). set (q' := if (a =? 0)%nat then (iy d - iy c)%Z else (- (iy d - iy c))%Z).
      replace (if (a =? 0)%nat then d_AB _ _ else _) with (d_AB p' q') by (unfold p', q'; destruct (a =? 0)%nat; reflexivity).
      destruct (shells_AB p' q') as [(_ & U)|[(_ & U)|(_ & U)]].
      * left. exists 142%Z. split; [left; reflexivity|]. lra.
      * left. exists 284%Z. split; [right; right; left; reflexivity|]. lra.
      * right. exact U.
Qed.
Print Assumptions C63.

(** Two shells: the nearest neighbour, a second neighbour, a third neighbour. *)
Example C63_example : exists m l, monolayer (K := GI) 2 (1, 0)%Z (-1, 0)%Z (-3, 0)%Z (2, 0)%Z (5, 0)%Z = Some m /\ run (fun _ => true) (fun x => x) (mt_calls m) = Some l /\
  hopping l (zero3, 0%nat) (zero3, 1%nat) = (-3, 0)%Z /\ hopping l (I3 4 0 0, 0%nat) (I3 3 0 0, 0%nat) = (2, 0)%Z /\ hopping l (zero3, 0%nat) (I3 1 0 0, 1%nat) = (0, 0)%Z /\
  monolayer (K := GI) 4 (1, 0)%Z (-1, 0)%Z (-3, 0)%Z (2, 0)%Z (5, 0)%Z = None.
Proof.
  destruct (monolayer (K := GI) 2 (1, 0)%Z (-1, 0)%Z (-3, 0)%Z (2, 0)%Z (5, 0)%Z) as [m|] eqn:E; [|discriminate].
  destruct (mono_run GI (fun _ => true) (fun x => x) _ _ _ _ _ _ m eq_refl eq_refl eq_refl E) as (_ & _ & ER).
  exists m. eexists. split; [reflexivity|]. split; [exact ER|]. unfold hopping. cbn [l_fams]. repeat split; vm_compute; reflexivity.
Qed.
