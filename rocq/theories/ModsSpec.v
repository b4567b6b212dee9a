(* Independent specification of structure modifiers and of queries on the built system
   (C33, C44-C47): rules for one site, applied site by site. *)
From Verif Require Import Base Rle Blocks TablesSpec Scalar Foundation FoundationSpec Lattice LatticeSpec SystemMods.
Local Open Scope nat_scope.

Section Rules.
  Context {R : scalar} {P : Type}.

  (** What a modifier does to one site: from the sublattice name, the position and the state. *)
  Definition state_rule := name -> P -> bool -> bool.
  Definition pos_rule := name -> P -> P.

  (** The callback treats every site by itself, by the rule [g]. *)
  Definition state_follows (f : list bool -> list P -> name -> outcome (list bool)) (g : state_rule) : Prop :=
    forall v ps nm, length v = length ps -> f v ps nm = Ok (map (fun pv => g nm (fst pv) (snd pv)) (combine ps v)).
  Definition pos_follows (f : list P -> name -> outcome (list P)) (g : pos_rule) : Prop :=
    forall ps nm, f ps nm = Ok (map (g nm) ps).

  Inductive rule := Keep (g : state_rule) (min_neighbors : Z) | Move (g : pos_rule).
  Definition mod_is (m : smod R P) (r : rule) : Prop :=
    match m, r with
    | SiteState f k, Keep g k' => k = k' /\ state_follows f g
    | PositionMod f, Move g => pos_follows f g
    | _, _ => False
    end.

  (** The rule can remove sites but not bring back removed ones. *)
  Definition only_removes (r : rule) : Prop := match r with Keep g _ => forall nm p, g nm p false = false | Move _ => True end.

  (** The largest subset of [L] in which every site keeps [m] neighbours or has lost none (see C06). *)
  Definition trimmed (size : idx3) (uc : list (usite P)) (m : Z) (L K : bsite -> bool) : Prop :=
    subset_of size uc K L /\ keep_or_untouched size uc m K /\
    (forall T, subset_of size uc T L -> keep_or_untouched size uc m T -> subset_of size uc T K).

  (** Effect of one rule on the block: each site is treated under the name of its own sublattice. *)
  Definition rule_effect (size : idx3) (uc : list (usite P)) (subs : list (sublattice R P)) (r : rule)
      (pos : list P) (v : list bool) (pos' : list P) (v' : list bool) : Prop :=
    length pos' = length pos /\ length v' = length v /\
    match r with
    | Keep g k =>
      pos' = pos /\ exists L,
      (forall s sb p, bsite_in size uc s -> In sb subs -> uid_at uc (snd s) = Some (sb_uid sb) ->
         nth_error pos (place size (fst s) (snd s)) = Some p -> L s = g (sb_name sb) p (flagged size v s)) /\
      if (0 <? k)%Z then trimmed size uc k L (flagged size v')
      else forall s, bsite_in size uc s -> flagged size v' s = L s
    | Move g =>
      v' = v /\
      forall s sb p, bsite_in size uc s -> In sb subs -> uid_at uc (snd s) = Some (sb_uid sb) ->
        nth_error pos (place size (fst s) (snd s)) = Some p ->
        nth_error pos' (place size (fst s) (snd s)) = Some (g (sb_name sb) p)
    end.

  (** Effect of a list of rules, one after the other. *)
  Inductive rules_effect (size : idx3) (uc : list (usite P)) (subs : list (sublattice R P))
    : list rule -> list P -> list bool -> list P -> list bool -> Prop :=
  | effect_nil : forall pos v, rules_effect size uc subs [] pos v pos v
  | effect_cons : forall r rs pos v pos1 v1 pos2 v2, rule_effect size uc subs r pos v pos1 v1 ->
      rules_effect size uc subs rs pos1 v1 pos2 v2 -> rules_effect size uc subs (r :: rs) pos v pos2 v2.

  (** Name under which the built system knows the family of site [n]. *)
  Definition site_name (reg : list (name * mat R)) (d : rle) (n : nat) : name :=
    fst (nth (fst (nth n (site_list d) (0, 0))) reg (Blank, Mat 0 0 (fun _ _ => k0))).
End Rules.
Arguments state_rule : clear implicits. Arguments pos_rule : clear implicits. Arguments rule : clear implicits.

(** The families that the generators of a model register, in order (Model.cpp:75-85). *)
Definition site_families {R P} (ms : list (smod R P)) : list (name * mat R) :=
  flat_map (fun m => match m with SiteGen n e _ => [(n, e)] | _ => [] end) ms.
Definition hop_families {R P} (ms : list (smod R P)) : list (name * mat R) :=
  flat_map (fun m => match m with HopGen n e _ => [(n, e)] | _ => [] end) ms.
