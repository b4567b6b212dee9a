(* Answers of the kernel polynomial core do not depend on earlier queries (C51). *)
From Verif Require Import Base Scalar Kpm KpmCore KpmState.

Lemma nat_list_eqb_eq : forall a b, nat_list_eqb a b = true <-> a = b.
Proof.
  induction a as [|x a IH]; intros [|y b]; cbn; try (split; congruence). rewrite andb_true_iff, Nat.eqb_eq, IH. split; [intros (-> & ->); auto|intros X; injection X; auto].
Qed.
Lemma indices_eqb_eq : forall a b, indices_eqb a b = true <-> a = b.
Proof.
  intros [a1 a2] [b1 b2]. unfold indices_eqb. cbn. rewrite andb_true_iff, !nat_list_eqb_eq. split; [intros (-> & ->); auto|intros X; injection X; auto].
Qed.

Section History.
  Variable R : scalar.
  Local Notation csr := (list (list (nat * R))).
  Variable E : Type.
  Variable eqb : E -> E -> bool.
  Variable lanczos : csr -> outcome (E * E).
  Variable scale : E -> E -> R * R.
  Variable reorder : bool.
  Variable range : E * E.
  Variable zero : E.
  Hypothesis eqb_refl : eqb zero zero = true.

  Notation core := (core R E).
  Notation new_core := (new_core R E eqb range zero).
  Notation kdo := (kdo R E eqb lanczos scale reorder range zero).
  Notation query idx f st := (query R E eqb lanczos scale reorder idx f st).

  (** The energy range of a matrix: the user's, or the estimate. *)
  Definition range_of (h : csr) : outcome (E * E) := if eqb (fst range) (snd range) then lanczos h else Ok range.
  Definition current (h0 : csr) (hist : list (kop R)) : csr :=
    fold_left (fun h o => match o with KHam h' => h' | KQuery _ => h end) hist h0.

  Record cinv (h : csr) (st : core) : Prop := {
    ci_h : co_h _ _ st = h;
    ci_bounds : co_bounds _ _ st = reset_bounds E eqb range zero \/
                exists lo hi, range_of h = Ok (lo, hi) /\ co_bounds _ _ st = Bounds _ (eqb (fst range) (snd range)) lo hi;
    ci_oh : (co_idx _ _ st = Indices [] [] /\ co_oh _ _ st = None) \/
            exists lo hi oh, range_of h = Ok (lo, hi) /\ co_oh _ _ st = Some oh /\
              optimize R (fst (scale lo hi)) (snd (scale lo hi)) h reorder (co_idx _ _ st) = Ok oh
  }.
  Lemma cinv_new : forall h, cinv h (new_core h).
  Proof. intros h. constructor; cbn; auto. Qed.

  Lemma compute_ok : forall h st, cinv h st ->
    match range_of h with
    | Ok (lo, hi) => exists st1, compute_bounds R E eqb lanczos st = Ok st1 /\ cinv h st1 /\ bd_min _ (co_bounds _ _ st1) = lo /\ bd_max _ (co_bounds _ _ st1) = hi /\
                       co_idx _ _ st1 = co_idx _ _ st /\ co_oh _ _ st1 = co_oh _ _ st
    | Throw => compute_bounds R E eqb lanczos st = Throw
    | UB => compute_bounds R E eqb lanczos st = UB
    end.
  Proof.
    intros h st [Hh Hb Ho]. unfold compute_bounds. rewrite Hh.
    destruct Hb as [Hb|(lo & hi & Hr & Hb)].
    - unfold range_of. unfold reset_bounds in Hb. destruct (eqb (fst range) (snd range)) eqn:Er.
      + rewrite Hb. cbn [bd_auto bd_min bd_max]. rewrite eqb_refl. cbn [negb orb].
        destruct (lanczos h) as [(lo, hi)| |] eqn:El; cbn; auto. eexists. split; [reflexivity|]. cbn. split; [|auto].
        constructor; cbn; auto. right. exists lo, hi. unfold range_of. rewrite Er. auto.
      + destruct range as (lo, hi) eqn:Erg. rewrite Hb. cbn [bd_auto negb orb]. exists st. split; [reflexivity|]. rewrite Hb. cbn [bd_min bd_max fst snd]. repeat split; auto.
        left. unfold reset_bounds. rewrite Erg, Er. exact Hb.
    - rewrite Hr, Hb. cbn [bd_auto bd_min bd_max]. destruct (eqb (fst range) (snd range)) eqn:Er; cbn [negb orb].
      + destruct (eqb lo hi) eqn:El; cbn [negb].
        * pose proof Hr as Hr'. unfold range_of in Hr'. rewrite Er in Hr'. rewrite Hr'. cbn. eexists. split; [reflexivity|]. cbn. split; [|auto].
          constructor; cbn; auto. right. exists lo, hi. rewrite Er. auto.
        * exists st. split; [reflexivity|]. rewrite Hb. cbn. repeat split; auto. right. exists lo, hi. rewrite Er. auto.
      + exists st. split; [reflexivity|]. rewrite Hb. cbn. repeat split; auto. right. exists lo, hi. rewrite Er. auto.
  Qed.

  Lemma query_ok : forall A idx (f : optimized R -> R * R -> outcome A) h st, cinv h st ->
    cinv h (fst (query idx f st)) /\
    (idx <> Indices [] [] -> snd (query idx f st) = obind (range_of h) (fun r => let s := scale (fst r) (snd r) in
       obind (optimize R (fst s) (snd s) h reorder idx) (fun oh => f oh s))).
  Proof.
    intros A idx f h st I. unfold KpmState.query. pose proof (compute_ok h st I) as C.
    destruct (range_of h) as [(lo, hi)| |] eqn:Er; [|rewrite C; cbn; auto|rewrite C; cbn; auto].
    destruct C as (st1 & -> & I1 & Elo & Ehi & Eidx & Eoh). rewrite Elo, Ehi. cbn [obind fst snd].
    destruct I1 as [Hh1 Hb1 Ho1]. unfold optimize_for. rewrite Hh1.
    destruct (indices_eqb (co_idx R E st1) idx) eqn:Ei.
    - apply indices_eqb_eq in Ei. split; [constructor; auto|]. intros Hne. cbn [snd].
      destruct Ho1 as [(Hi & Hn)|(lo' & hi' & oh & Hr & Ho & Hopt)]; [congruence|].
      rewrite Er in Hr. injection Hr as <- <-. rewrite Ho, <- Ei, Hopt. reflexivity.
    - destruct (optimize R (fst (scale lo hi)) (snd (scale lo hi)) h reorder idx) as [oh| |] eqn:Eo; cbn.
      + split; [|auto]. constructor; cbn; auto. right. exists lo, hi, oh. auto.
      + split; [constructor; auto|auto].
      + split; [constructor; auto|auto].
  Qed.

  Lemma history_ok : forall hist h0 st, cinv h0 st -> cinv (current h0 hist) (fold_left kdo hist st).
  Proof.
    induction hist as [|o t IH]; intros h0 st I; [exact I|]. cbn [fold_left]. unfold current in *. cbn [fold_left]. apply IH.
    destruct o as [idx|h]; cbn [KpmState.kdo]; [apply query_ok; exact I|apply cinv_new].
  Qed.
End History.
