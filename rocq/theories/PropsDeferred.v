(* C119: deferred computations *)
From Verif Require Import Base Deferred.
From Coq Require Import List Arith Bool Lia.
Import ListNotations.
Arguments Kpm {M}. Arguments k_model {M}. Arguments k_core {M}. Arguments Def {A V}. Arguments d_kpm {A V}. Arguments d_args {A V}. Arguments d_result {A V}. Arguments d_computed {A V}.
Arguments World {M A V}. Arguments w_kpms {M A V}. Arguments w_defs {M A V}. Arguments w_busy {M A V}. Arguments New {M A}. Arguments Set_model {M A}. Arguments Defer {M A}. Arguments Start {M A}. Arguments Finish {M A}. Arguments Result {M A}.
Arguments Done {V}. Arguments Raised {V}. Arguments Value {V}. Arguments busy {M A V}. Arguments kpm_of {M A V}. Arguments step {M A V}. Arguments run {M A V}. Arguments nothing {M A V}. Arguments start {M A V}. Arguments finish {M A V}. Arguments result {M A V}. Arguments set_model {M A V}. Arguments deferred_ldos {M A V}.

(** ** Specification *)
Section Spec.
  Variables M A V : Type.
  (** The events of one job: nobody asks for it while it is computed. *)
  Fixpoint in_order (d : nat) (running : bool) (es : list (event M A)) : Prop :=
    match es with
    | [] => True
    | Start d' :: r => if d' =? d then running = false /\ in_order d true r else in_order d running r
    | Finish d' :: r => if d' =? d then in_order d false r else in_order d running r
    | Result d' :: r => if d' =? d then running = false /\ in_order d false r else in_order d running r
    | _ :: r => in_order d running r
    end.
  (** The solvers asked for a deferred computation, with repetitions. *)
  Definition asked (es : list (event M A)) : list nat := flat_map (fun e => match e with Defer k _ => [k] | _ => [] end) es.
  (** No solver gets a new model after it was asked. *)
  Definition left_alone (es : list (event M A)) : Prop := forall es1 k a es2 m, es = es1 ++ Defer k a :: es2 -> ~ In (Set_model k m) es2.
End Spec.
Arguments in_order {M A}. Arguments asked {M A}. Arguments left_alone {M A}.

(** ** One step *)
Section Proofs.
  Variables M A V : Type.
  Variable builds : M -> bool.
  Variable calc : M -> M -> A -> option V.
  Notation step := (step (V := V) builds calc).
  Notation run := (run (V := V) builds calc).

  Definition inv (w : world M A V) : Prop :=
    (forall d x, nth_error (w_defs w) d = Some x -> d_kpm x < length (w_kpms w) /\ (d_computed x = true -> d_result x <> None)) /\
    (forall d, In d (w_busy w) -> exists x, nth_error (w_defs w) d = Some x /\ d_computed x = false) /\
    (forall k q, nth_error (w_kpms w) k = Some q -> builds (k_model q) = true -> k_core q = k_model q).

  (** What happens to a deferred object in a step. *)
  Definition changes (w : world M A V) (e : event M A) (d : nat) (x x' : deferred A V) : Prop :=
    x' = x \/ d_computed x = false /\ (e = Finish d \/ e = Result d) /\
      exists q v, nth_error (w_kpms w) (d_kpm x) = Some q /\ calc (k_model q) (k_core q) (d_args x) = Some v /\ x' = Def (d_kpm x) (d_args x) (Some v) true.

  Lemma in_busy : forall (w : world M A V) d, existsb (Nat.eqb d) (w_busy w) = true <-> In d (w_busy w).
  Proof. intros w d. rewrite existsb_exists. split; [intros (x & H & E); apply Nat.eqb_eq in E; subst; exact H|intros H; exists d; rewrite Nat.eqb_refl; auto]. Qed.
  Lemma busy_iff : forall (w : world M A V) k, busy w k = true <-> exists d x, In d (w_busy w) /\ nth_error (w_defs w) d = Some x /\ d_kpm x = k.
  Proof.
    intros w k. unfold busy. rewrite existsb_exists. unfold kpm_of. split.
    - intros (d & H & E). destruct (nth_error (w_defs w) d) as [x|] eqn:X; cbn in E; [|discriminate]. apply Nat.eqb_eq in E. exists d, x. auto.
    - intros (d & x & H & X & E). exists d. rewrite X. cbn. rewrite E, Nat.eqb_refl. auto.
  Qed.

  (** [finish] alone *)
  Lemma finish_ok : forall w d w' r, inv w -> finish calc w d = Ok (w', r) ->
    inv w' /\ w_kpms w' = w_kpms w /\ length (w_defs w') = length (w_defs w) /\
    (forall e, In e (w_busy w') -> In e (w_busy w)) /\ ~ In d (w_busy w') /\
    (r = Raised -> w_defs w' = w_defs w) /\ (forall v, r <> Value v) /\
    (forall e x, nth_error (w_defs w) e = Some x -> exists x', nth_error (w_defs w') e = Some x' /\ changes w (Finish e) e x x') /\
    (r = Done -> In d (w_busy w) -> exists x', nth_error (w_defs w') d = Some x' /\ d_computed x' = true).
  Proof.
    intros w d w' r (I1 & I2 & I3) E. unfold finish in E. destruct (existsb (Nat.eqb d) (w_busy w)) eqn:B.
    - apply in_busy in B. destruct (I2 d B) as (x & X & C). rewrite X in E. destruct (I1 d x X) as (L & _).
      destruct (nth_error (w_kpms w) (d_kpm x)) as [q|] eqn:Q; [|apply nth_error_None in Q; lia].
      assert (DL : d < length (w_defs w)) by (apply nth_error_Some; congruence).
      assert (FB : forall e, In e (filter (fun e => negb (Nat.eqb e d)) (w_busy w)) -> In e (w_busy w) /\ e <> d).
      { intros e He. apply filter_In in He. destruct He as (H1 & H2). split; [exact H1|]. intros ->. rewrite Nat.eqb_refl in H2. discriminate. }
      destruct (calc (k_model q) (k_core q) (d_args x)) as [v|] eqn:K; injection E as <- <-; cbn [w_kpms w_defs w_busy].
      + split; [|split; [reflexivity|split; [apply upd_length|split; [intros e He; apply FB, He|split; [intros He; apply FB in He; tauto|split; [discriminate|split; [discriminate|split]]]]]]].
        * split; [|split]; cbn [w_kpms w_defs w_busy].
          -- intros e y Y. destruct (Nat.eq_dec d e) as [->|D]; [rewrite nth_error_upd_eq in Y by exact DL; injection Y as <-; cbn; split; [exact L|discriminate]|rewrite nth_error_upd_neq in Y by exact D; apply (I1 e y Y)].
          -- intros e He. apply FB in He. destruct He as (H1 & H2). rewrite nth_error_upd_neq by congruence. apply I2, H1.
          -- exact I3.
        * intros e y Y. destruct (Nat.eq_dec d e) as [->|D].
          -- rewrite nth_error_upd_eq by exact DL. eexists. split; [reflexivity|]. rewrite X in Y. injection Y as <-. right. split; [exact C|]. split; [auto|]. exists q, v. auto.
          -- rewrite nth_error_upd_neq by exact D. exists y. split; [exact Y|]. left. reflexivity.
        * intros _ _. rewrite nth_error_upd_eq by exact DL. eexists. split; reflexivity.
      + split; [|split; [reflexivity|split; [reflexivity|split; [intros e He; apply FB, He|split; [intros He; apply FB in He; tauto|split; [reflexivity|split; [discriminate|split]]]]]]].
        * split; [exact I1|split; [|exact I3]]. cbn [w_kpms w_defs w_busy]. intros e He. apply I2, FB, He.
        * intros e y Y. exists y. split; [exact Y|left; reflexivity].
        * discriminate.
    - assert (NB : ~ In d (w_busy w)) by (intros H; apply in_busy in H; congruence). injection E as <- <-.
      split; [exact (conj I1 (conj I2 I3))|]. split; [reflexivity|]. split; [reflexivity|]. split; [auto|]. split; [exact NB|]. split; [discriminate|]. split; [discriminate|]. split; [|contradiction].
      intros e y Y. exists y. split; [exact Y|left; reflexivity].
  Qed.

  Lemma start_ok : forall w d w' r, inv w -> start w d = Ok (w', r) ->
    inv w' /\ w_kpms w' = w_kpms w /\ w_defs w' = w_defs w /\ (forall v, r <> Value v) /\
    (forall e, In e (w_busy w') -> e = d \/ In e (w_busy w)) /\
    (w' = w \/ w_busy w' = d :: w_busy w) /\
    (r = Done -> exists x, nth_error (w_defs w) d = Some x /\ (d_computed x = true /\ w' = w \/ d_computed x = false /\ w_busy w' = d :: w_busy w)).
  Proof.
    intros w d w' r (I1 & I2 & I3) E. unfold start in E. destruct (nth_error (w_defs w) d) as [x|] eqn:X.
    - destruct (d_computed x) eqn:C; [injection E as <- <-|destruct (busy w (d_kpm x)); [discriminate|injection E as <- <-]]; cbn [w_kpms w_defs w_busy].
      + split; [exact (conj I1 (conj I2 I3))|]. repeat split; auto; try discriminate. intros _. exists x. auto.
      + split; [|repeat split; auto; try discriminate].
        * split; [exact I1|split; [|exact I3]]. cbn [w_kpms w_defs w_busy]. intros e [<-|He]; [exists x; auto|apply I2, He].
        * intros e [<-|He]; auto.
        * intros _. exists x. auto.
    - injection E as <- <-. split; [exact (conj I1 (conj I2 I3))|]. repeat split; auto; try discriminate.
  Qed.

  Lemma step_ok : forall w e w' r, inv w -> step w e = Ok (w', r) ->
    inv w' /\ length (w_defs w) <= length (w_defs w') /\
    (forall k q, nth_error (w_kpms w) k = Some q -> (forall m, e <> Set_model k m) -> nth_error (w_kpms w') k = Some q) /\
    (forall d x, nth_error (w_defs w) d = Some x -> exists x', nth_error (w_defs w') d = Some x' /\ changes w e d x x').
  Proof.
    intros w e w' r I E. destruct e as [m|k m|k a|d|d|d]; cbn [Deferred.step] in E.
    - destruct (builds m) eqn:B; injection E as <- <-; cbn [w_kpms w_defs].
      + destruct I as (I1 & I2 & I3). split; [|split; [lia|split]].
        * split; [|split; [exact I2|]]; cbn [w_kpms w_defs w_busy].
          -- intros d x X. rewrite app_length. destruct (I1 d x X). split; [cbn; lia|assumption].
          -- intros k q Q. destruct (Nat.lt_ge_cases k (length (w_kpms w))) as [H|H]; [rewrite nth_error_app1 in Q by exact H; apply (I3 k q Q)|].
             rewrite nth_error_app2 in Q by exact H. destruct (k - length (w_kpms w)) as [|[|j]]; try discriminate. injection Q as <-. reflexivity.
        * intros k q Q _. rewrite nth_error_app1; [exact Q|]. apply nth_error_Some. congruence.
        * intros d x X. exists x. split; [exact X|left; reflexivity].
      + split; [exact I|]. split; [lia|]. split; [auto|]. intros d x X. exists x. split; [exact X|left; reflexivity].
    - unfold set_model in E. destruct (nth_error (w_kpms w) k) as [q|] eqn:Q.
      + destruct (busy w k); [discriminate|]. injection E as <- <-. cbn [w_kpms w_defs]. destruct I as (I1 & I2 & I3).
        assert (KL : k < length (w_kpms w)) by (apply nth_error_Some; congruence).
        split; [|split; [lia|split]].
        * split; [|split; [exact I2|]]; cbn [w_kpms w_defs w_busy].
          -- intros d x X. rewrite upd_length. apply (I1 d x X).
          -- intros k' q' Q' Bq. destruct (Nat.eq_dec k k') as [->|D]; [rewrite nth_error_upd_eq in Q' by exact KL; injection Q' as <-; cbn [k_model k_core] in *; rewrite Bq; reflexivity|rewrite nth_error_upd_neq in Q' by exact D; apply (I3 k' q' Q' Bq)].
        * intros k' q' Q' NS. rewrite nth_error_upd_neq; [exact Q'|]. intros ->. apply (NS m). reflexivity.
        * intros d x X. exists x. split; [exact X|left; reflexivity].
      + injection E as <- <-. split; [exact I|]. split; [lia|]. split; [auto|]. intros d x X. exists x. split; [exact X|left; reflexivity].
    - unfold deferred_ldos in E. destruct (nth_error (w_kpms w) k) as [q|] eqn:Q; [destruct (builds (k_model q)) eqn:B|]; injection E as <- <-; cbn [w_kpms w_defs].
      + destruct I as (I1 & I2 & I3). assert (KL : k < length (w_kpms w)) by (apply nth_error_Some; congruence).
        assert (OLD : forall d x, nth_error (w_defs w) d = Some x -> nth_error (w_defs w ++ [Def k a None false]) d = Some x) by (intros d x X; rewrite nth_error_app1; [exact X|]; apply nth_error_Some; congruence).
        split; [|split; [rewrite app_length; lia|split; [auto|]]].
        * split; [|split; [|exact I3]]; cbn [w_kpms w_defs w_busy].
          -- intros d x X. destruct (Nat.lt_ge_cases d (length (w_defs w))) as [H|H]; [rewrite nth_error_app1 in X by exact H; apply (I1 d x X)|].
             rewrite nth_error_app2 in X by exact H. destruct (d - length (w_defs w)) as [|[|j]]; try discriminate. injection X as <-. cbn. split; [exact KL|discriminate].
          -- intros d Hd. destruct (I2 d Hd) as (x & X & C). exists x. auto.
        * intros d x X. exists x. split; [apply OLD, X|left; reflexivity].
      + split; [exact I|]. split; [lia|]. split; [auto|]. intros d x X. exists x. split; [exact X|left; reflexivity].
      + split; [exact I|]. split; [lia|]. split; [auto|]. intros d x X. exists x. split; [exact X|left; reflexivity].
    - destruct (start_ok w d w' r I E) as (I' & K & D & _). split; [exact I'|]. rewrite K, D. split; [lia|]. split; [auto|]. intros e x X. exists x. split; [exact X|left; reflexivity].
    - destruct (finish_ok w d w' r I E) as (I' & K & L & _ & _ & _ & _ & CH & _). split; [exact I'|]. rewrite K, L. split; [lia|]. split; [auto|]. intros e x X.
      destruct (CH e x X) as (x' & X' & C). exists x'. split; [exact X'|]. destruct C as [C|(C1 & _ & C2)]; [left; exact C|].
      destruct (Nat.eq_dec e d) as [->|D]; [right; auto|]. left. exfalso. unfold finish in E. destruct (existsb (Nat.eqb d) (w_busy w)); [|injection E as <- <-; destruct C2 as (q & v & _ & _ & ->); rewrite X in X'; injection X' as Hx; rewrite Hx in C1; discriminate C1].
      destruct (nth_error (w_defs w) d) as [y|]; [|discriminate]. destruct (nth_error (w_kpms w) (d_kpm y)) as [q0|]; [|discriminate].
      destruct C2 as (q & v & _ & _ & ->). destruct (calc (k_model q0) (k_core q0) (d_args y)); injection E as <- <-; cbn [w_defs] in X'; [rewrite nth_error_upd_neq in X' by congruence|]; rewrite X in X'; injection X' as Hx; rewrite Hx in C1; discriminate C1.
    - unfold result in E. destruct (start w d) as [[w1 r1]| |] eqn:S; cbn [obind snd fst] in E; try discriminate.
      destruct (start_ok w d w1 r1 I S) as (I1 & K1 & D1 & _).
      assert (G : forall w2 r2, finish calc w1 d = Ok (w2, r2) -> inv w2 /\ length (w_defs w) <= length (w_defs w2) /\
        (forall k q, nth_error (w_kpms w) k = Some q -> (forall m, Result (M := M) (A := A) d <> Set_model k m) -> nth_error (w_kpms w2) k = Some q) /\
        (forall e x, nth_error (w_defs w) e = Some x -> exists x', nth_error (w_defs w2) e = Some x' /\ changes w (Result d) e x x')).
      { intros w2 r2 F. destruct (finish_ok w1 d w2 r2 I1 F) as (I2 & K2 & L2 & _ & _ & _ & _ & CH & _). split; [exact I2|]. rewrite L2, D1. split; [lia|]. split; [intros k q Q _; rewrite K2, K1; exact Q|].
        intros e x X. rewrite D1 in CH. destruct (CH e x X) as (x' & X' & C). exists x'. split; [exact X'|]. destruct C as [C|(C1 & _ & C2)]; [left; exact C|].
        destruct (Nat.eq_dec e d) as [->|D]; [right; split; [exact C1|]; split; [auto|]; rewrite K1 in C2; exact C2|]. exfalso. unfold finish in F.
        destruct (existsb (Nat.eqb d) (w_busy w1)); [|injection F as <- <-; destruct C2 as (q & v & _ & _ & ->); rewrite D1, X in X'; injection X' as Hx; rewrite Hx in C1; discriminate C1].
        destruct (nth_error (w_defs w1) d) as [y|]; [|discriminate]. destruct (nth_error (w_kpms w1) (d_kpm y)) as [q0|]; [|discriminate].
        destruct C2 as (q & v & _ & _ & ->). destruct (calc (k_model q0) (k_core q0) (d_args y)); injection F as <- <-; cbn [w_defs] in X'; [rewrite nth_error_upd_neq in X' by congruence|]; rewrite D1, X in X'; injection X' as Hx; rewrite Hx in C1; discriminate C1. }
      assert (Q : inv w1 /\ length (w_defs w) <= length (w_defs w1) /\
        (forall k q, nth_error (w_kpms w) k = Some q -> (forall m, Result (M := M) (A := A) d <> Set_model k m) -> nth_error (w_kpms w1) k = Some q) /\
        (forall e x, nth_error (w_defs w) e = Some x -> exists x', nth_error (w_defs w1) e = Some x' /\ changes w (Result d) e x x')).
      { split; [exact I1|]. rewrite D1, K1. split; [lia|]. split; [auto|]. intros e x X. exists x. split; [exact X|left; reflexivity]. }
      destruct r1; [| injection E as <- <-; exact Q |];
        (destruct (finish calc w1 d) as [[w2 r2]| |] eqn:F; cbn [obind snd fst] in E; try discriminate;
         destruct r2; [destruct (nth_error (w_defs w2) d); [|discriminate]; injection E as <- <-; apply (G w2 Done eq_refl)
                      | injection E as <- <-; apply (G w2 Raised eq_refl)
                      | destruct (nth_error (w_defs w2) d); [|discriminate]; injection E as <- <-; apply (G w2 _ eq_refl)]).
  Qed.

  Lemma run_cons : forall e es w, run (e :: es) w = obind (step w e) (fun r => run es (fst r)).
  Proof. intros e es w. unfold Deferred.run. cbn [ofold]. unfold omap. destruct (step w e) as [[w1 r]| |]; reflexivity. Qed.
  Lemma run_inv : forall es w w', inv w -> run es w = Ok w' -> inv w'.
  Proof.
    induction es as [|e es IH]; intros w w' I E; [injection E as <-; exact I|]. rewrite run_cons in E. destruct (step w e) as [[w1 r]| |] eqn:S; try discriminate.
    cbn [obind fst] in E. apply (IH w1 w'); [|exact E]. apply (step_ok w e w1 r I S).
  Qed.
  Lemma nothing_inv : inv nothing.
  Proof. split; [|split]; cbn; [intros [|d] x X; discriminate|intros d []|intros [|k] q Q; discriminate]. Qed.
  Lemma run_keeps : forall es w w' d x, inv w -> run es w = Ok w' -> nth_error (w_defs w) d = Some x -> d_computed x = true -> nth_error (w_defs w') d = Some x.
  Proof.
    induction es as [|e es IH]; intros w w' d x I E X C; [injection E as <-; exact X|]. rewrite run_cons in E. destruct (step w e) as [[w1 r]| |] eqn:S; try discriminate.
    cbn [obind fst] in E. destruct (step_ok w e w1 r I S) as (I1 & _ & _ & CH). destruct (CH d x X) as (x' & X' & [->|(C' & _)]); [|congruence]. apply (IH w1 w'); auto.
  Qed.
End Proofs.

(** ** Computed at most once; the result never changes *)
Theorem C119_once : forall M A V (builds : M -> bool) (calc : M -> M -> A -> option V) es w d x es' w',
  run builds calc es nothing = Ok w -> nth_error (w_defs w) d = Some x -> d_computed x = true -> run builds calc es' w = Ok w' ->
  d_result x <> None /\ nth_error (w_defs w') d = Some x /\ step builds calc w' (Result d) = Ok (w', Value (d_result x)) /\
  step builds calc w' (Start d) = Ok (w', Done).
Proof.
  intros M A V builds calc es w d x es' w' E X C E'. pose proof (run_inv M A V builds calc es _ _ (nothing_inv M A V builds) E) as I.
  pose proof (run_inv M A V builds calc es' _ _ I E') as (J1 & J2 & J3). pose proof (run_keeps M A V builds calc es' w w' d x I E' X C) as X'.
  split; [destruct (J1 d x X') as (_ & H); apply H, C|]. split; [exact X'|].
  assert (NB : existsb (Nat.eqb d) (w_busy w') = false).
  { apply not_true_is_false. intros B. apply (in_busy M A V w' d) in B. destruct (J2 d B) as (y & Y & Cy). congruence. }
  cbn [step]. unfold result, start, finish. rewrite X', C. cbn [obind snd fst]. rewrite NB. cbn [obind snd fst]. rewrite X'. split; reflexivity.
Qed.
Print Assumptions C119_once.

(** The result is the density of the model which the solver has when the computation ends. *)
Lemma value_from : forall M A V (builds : M -> bool) (calc : M -> M -> A -> option V) es w w' d x,
  inv M A V builds w -> run builds calc es w = Ok w' -> nth_error (w_defs w') d = Some x -> d_computed x = true -> (forall y, nth_error (w_defs w) d = Some y -> d_computed y = false) ->
  exists es1 e es2 w1 y q, es = es1 ++ e :: es2 /\ (e = Finish d \/ e = Result d) /\ run builds calc es1 w = Ok w1 /\
    nth_error (w_defs w1) d = Some y /\ d_computed y = false /\ nth_error (w_kpms w1) (d_kpm x) = Some q /\ d_result x = calc (k_model q) (k_core q) (d_args x).
Proof.
  intros M A V builds calc es. induction es as [|e es IH]; intros w w' d x I E X C H; [injection E as <-; rewrite (H x X) in C; discriminate|].
  rewrite run_cons in E. destruct (step builds calc w e) as [[w1 r]| |] eqn:S; try discriminate. cbn [obind fst] in E.
  destruct (step_ok M A V builds calc w e w1 r I S) as (I1 & L1 & _ & CH).
  destruct (nth_error (w_defs w1) d) as [y1|] eqn:Y1; [destruct (d_computed y1) eqn:C1|].
  - pose proof (run_keeps M A V builds calc es w1 w' d y1 I1 E Y1 C1) as Y2. rewrite X in Y2. injection Y2 as <-.
    destruct (nth_error (w_defs w) d) as [y|] eqn:Y.
    + destruct (CH d y Y) as (y' & Y' & D). rewrite Y1 in Y'. injection Y' as <-. destruct D as [->|(Cy & He & q & v & Q & K & ->)]; [rewrite (H y eq_refl) in C1; discriminate|].
      exists [], e, es, w, y, q. cbn [app d_kpm d_args d_result]. rewrite K. auto 10.
    + exfalso. assert (D0 : d >= length (w_defs w)) by (apply nth_error_None; exact Y).
      (* a new object is not computed *)
      destruct e as [m|k m|k a|d'|d'|d']; cbn [step] in S.
      * destruct (builds m); injection S as <- <-; cbn [w_defs] in Y1; congruence.
      * unfold set_model in S. destruct (nth_error (w_kpms w) k); [destruct (busy w k); [discriminate|]|]; injection S as <- <-; cbn [w_defs] in Y1; congruence.
      * unfold deferred_ldos in S. destruct (nth_error (w_kpms w) k) as [q|]; [destruct (builds (k_model q))|]; injection S as <- <-; cbn [w_defs] in Y1; try congruence.
        rewrite nth_error_app2 in Y1 by lia. destruct (d - length (w_defs w)) as [|[|j]]; try discriminate. injection Y1 as <-. discriminate C1.
      * destruct (start_ok M A V builds w d' w1 r I S) as (_ & _ & D & _). congruence.
      * destruct (finish_ok M A V builds calc w d' w1 r I S) as (_ & _ & L & _). assert (d < length (w_defs w1)) by (apply nth_error_Some; congruence). lia.
      * unfold result in S. destruct (start w d') as [[wa ra]| |] eqn:Sa; cbn [obind snd fst] in S; try discriminate. destruct (start_ok M A V builds w d' wa ra I Sa) as (Ia & _ & D & _).
        assert (LL : length (w_defs w1) = length (w_defs w)).
        { destruct ra; try (injection S as <- <-; congruence); (destruct (finish calc wa d') as [[wb rb]| |] eqn:Sb; cbn [obind snd fst] in S; try discriminate; destruct (finish_ok M A V builds calc wa d' wb rb Ia Sb) as (_ & _ & L & _);
          rewrite D in L; destruct rb; try (destruct (nth_error (w_defs wb) d'); [|discriminate]); injection S as <- <-; exact L). }
        assert (d < length (w_defs w1)) by (apply nth_error_Some; congruence). lia.
  - destruct (IH w1 w' d x I1 E X C ltac:(intros y Hy; rewrite Y1 in Hy; injection Hy as <-; exact C1)) as (es1 & e' & es2 & w2 & y & q & -> & R). exists (e :: es1), e', es2, w2, y, q.
    split; [reflexivity|]. destruct R as (R1 & R2 & R3). split; [exact R1|]. split; [rewrite run_cons, S; exact R2|exact R3].
  - destruct (IH w1 w' d x I1 E X C ltac:(intros y Hy; congruence)) as (es1 & e' & es2 & w2 & y & q & -> & R). exists (e :: es1), e', es2, w2, y, q.
    split; [reflexivity|]. destruct R as (R1 & R2 & R3). split; [exact R1|]. split; [rewrite run_cons, S; exact R2|exact R3].
Qed.
Theorem C119_value : forall M A V (builds : M -> bool) (calc : M -> M -> A -> option V) es w d x,
  run builds calc es nothing = Ok w -> nth_error (w_defs w) d = Some x -> d_computed x = true ->
  exists es1 e es2 w1 y q, es = es1 ++ e :: es2 /\ (e = Finish d \/ e = Result d) /\ run builds calc es1 nothing = Ok w1 /\
    nth_error (w_defs w1) d = Some y /\ d_computed y = false /\ nth_error (w_kpms w1) (d_kpm x) = Some q /\ d_result x = calc (k_model q) (k_core q) (d_args x).
Proof. intros M A V builds calc es w d x E X C. apply (value_from M A V builds calc es nothing w d x (nothing_inv M A V builds) E X C). intros y Y. destruct d; discriminate. Qed.
Print Assumptions C119_value.

(** A computation that fails can be repeated. *)
Theorem C119_retry : forall M A V (builds : M -> bool) (calc : M -> M -> A -> option V) es w d w',
  run builds calc es nothing = Ok w -> step builds calc w (Finish d) = Ok (w', Raised) -> w_defs w' = w_defs w /\ ~ In d (w_busy w').
Proof.
  intros M A V builds calc es w d w' E S. pose proof (run_inv M A V builds calc es _ _ (nothing_inv M A V builds) E) as I.
  destruct (finish_ok M A V builds calc w d w' Raised I S) as (_ & _ & _ & _ & NB & R & _). auto.
Qed.
Print Assumptions C119_retry.

(** ** While a job is computed *)
(** A new model for its solver, or another computation with its solver, is a race. *)
Theorem C119_busy : forall M A V (builds : M -> bool) (calc : M -> M -> A -> option V) es w d x,
  run builds calc es nothing = Ok w -> In d (w_busy w) -> nth_error (w_defs w) d = Some x ->
  (forall m, step builds calc w (Set_model (d_kpm x) m) = UB) /\
  forall d' x', nth_error (w_defs w) d' = Some x' -> d_kpm x' = d_kpm x -> d_computed x' = false ->
    step builds calc w (Start d') = UB /\ step builds calc w (Result d') = UB.
Proof.
  intros M A V builds calc es w d x E B X. pose proof (run_inv M A V builds calc es _ _ (nothing_inv M A V builds) E) as (I1 & _).
  assert (BK : busy w (d_kpm x) = true) by (apply busy_iff; exists d, x; auto). split.
  - intros m. cbn [step]. unfold set_model. destruct (nth_error (w_kpms w) (d_kpm x)) as [q|] eqn:Q; [rewrite BK; reflexivity|]. apply nth_error_None in Q. destruct (I1 d x X). lia.
  - intros d' x' X' K C. cbn [step]. unfold result, start. rewrite X', C, K, BK. split; reflexivity.
Qed.
Print Assumptions C119_busy.
Section During.
  Variables M A V : Type.
  Variable builds : M -> bool.
  Variable calc : M -> M -> A -> option V.
  Lemma during_step : forall (w : world M A V) e w' r d x, inv M A V builds w -> step builds calc w e = Ok (w', r) -> In d (w_busy w) -> nth_error (w_defs w) d = Some x -> e <> Finish d ->
    In d (w_busy w') /\ nth_error (w_defs w') d = Some x /\ nth_error (w_kpms w') (d_kpm x) = nth_error (w_kpms w) (d_kpm x).
  Proof.
    intros w e w' r d x I E B X NF. destruct (step_ok M A V builds calc w e w' r I E) as (I' & _ & KK & CH).
    pose proof I as (I1 & I2 & _). destruct (I2 d B) as (x0 & X0 & C). rewrite X in X0. injection X0 as <-. destruct (I1 d x X) as (KL & _).
    assert (BK : busy w (d_kpm x) = true) by (apply busy_iff; exists d, x; auto).
    destruct (nth_error (w_kpms w) (d_kpm x)) as [q|] eqn:Q; [|apply nth_error_None in Q; lia].
    assert (NS : forall m, e <> Set_model (d_kpm x) m) by (intros m ->; cbn [step] in E; unfold set_model in E; rewrite Q, BK in E; discriminate).
    assert (NR : e <> Result d) by (intros ->; cbn [step] in E; unfold result, start in E; rewrite X, C, BK in E; discriminate).
    split; [|split; [|exact (KK _ q Q NS)]].
    - destruct e as [m|k m|k a|d'|d'|d']; cbn [step] in E.
      + destruct (builds m); injection E as <- <-; exact B.
      + unfold set_model in E. destruct (nth_error (w_kpms w) k); [destruct (busy w k); [discriminate|]|]; injection E as <- <-; exact B.
      + unfold deferred_ldos in E. destruct (nth_error (w_kpms w) k) as [q'|]; [destruct (builds (k_model q'))|]; injection E as <- <-; exact B.
      + destruct (start_ok M A V builds w d' w' r I E) as (_ & _ & _ & _ & _ & [->| ->] & _); [exact B|right; exact B].
      + unfold finish in E. assert (D : d' <> d) by (intros ->; apply NF; reflexivity). destruct (existsb (Nat.eqb d') (w_busy w)); [|injection E as <- <-; exact B].
        destruct (nth_error (w_defs w) d') as [y|]; [|discriminate]. destruct (nth_error (w_kpms w) (d_kpm y)) as [q'|]; [|discriminate].
        assert (F : In d (filter (fun e => negb (Nat.eqb e d')) (w_busy w))) by (apply filter_In; split; [exact B|]; destruct (Nat.eqb_spec d d'); [congruence|reflexivity]).
        destruct (calc (k_model q') (k_core q') (d_args y)); injection E as <- <-; exact F.
      + assert (D : d' <> d) by (intros ->; apply NR; reflexivity). unfold result in E. destruct (start w d') as [[w1 r1]| |] eqn:S; cbn [obind snd fst] in E; try discriminate.
        assert (B1 : In d (w_busy w1)) by (destruct (start_ok M A V builds w d' w1 r1 I S) as (_ & _ & _ & _ & _ & [->| ->] & _); [exact B|right; exact B]).
        assert (FF : forall w2 r2, finish calc w1 d' = Ok (w2, r2) -> In d (w_busy w2)).
        { intros w2 r2 E2. unfold finish in E2. destruct (existsb (Nat.eqb d') (w_busy w1)); [|injection E2 as <- <-; exact B1].
          destruct (nth_error (w_defs w1) d') as [y|]; [|discriminate]. destruct (nth_error (w_kpms w1) (d_kpm y)) as [q'|]; [|discriminate].
          assert (F : In d (filter (fun e => negb (Nat.eqb e d')) (w_busy w1))) by (apply filter_In; split; [exact B1|]; destruct (Nat.eqb_spec d d'); [congruence|reflexivity]).
          destruct (calc (k_model q') (k_core q') (d_args y)); injection E2 as <- <-; exact F. }
        destruct r1; try (injection E as <- <-; exact B1);
          (destruct (finish calc w1 d') as [[w2 r2]| |] eqn:F; cbn [obind snd fst] in E; try discriminate; specialize (FF w2 r2 eq_refl);
           destruct r2; try (destruct (nth_error (w_defs w2) d'); [|discriminate]); injection E as <- <-; exact FF).
    - destruct (CH d x X) as (x' & X' & [->|(_ & [H|H] & _)]); [exact X'|contradiction|contradiction].
  Qed.
End During.
(** A job that was started gets its result when it ends, whatever the others do meanwhile: the density of the model its solver had all the time. *)
Theorem C119_ends : forall M A V (builds : M -> bool) (calc : M -> M -> A -> option V) es w d x w1 es' w2,
  run builds calc es nothing = Ok w -> nth_error (w_defs w) d = Some x -> d_computed x = false -> step builds calc w (Start d) = Ok (w1, Done) ->
  run builds calc es' w1 = Ok w2 -> ~ In (Finish d) es' ->
  exists q w3 r, nth_error (w_kpms w) (d_kpm x) = Some q /\ nth_error (w_kpms w2) (d_kpm x) = Some q /\ step builds calc w2 (Finish d) = Ok (w3, r) /\
    (forall e, In e (w_busy w3) <-> In e (w_busy w2) /\ e <> d) /\
    match calc (k_model q) (k_core q) (d_args x) with
    | Some v => r = Done /\ nth_error (w_defs w3) d = Some (Def (d_kpm x) (d_args x) (Some v) true)
    | None => r = Raised /\ nth_error (w_defs w3) d = Some x
    end.
Proof.
  intros M A V builds calc es w d x w1 es' w2 E X C S E' NF. pose proof (run_inv M A V builds calc es _ _ (nothing_inv M A V builds) E) as I.
  cbn [step] in S. destruct (start_ok M A V builds w d w1 Done I S) as (I1 & K1 & D1 & _ & _ & _ & DN). destruct (DN eq_refl) as (y & Y & [(Cy & _)|(_ & B1)]); [congruence|].
  assert (G : forall es' wa w2, inv M A V builds wa -> In d (w_busy wa) -> nth_error (w_defs wa) d = Some x -> run builds calc es' wa = Ok w2 -> ~ In (Finish d) es' ->
    In d (w_busy w2) /\ nth_error (w_defs w2) d = Some x /\ nth_error (w_kpms w2) (d_kpm x) = nth_error (w_kpms wa) (d_kpm x)).
  { clear. induction es' as [|e es' IH]; intros wa w2 I B X E NF; [injection E as <-; auto|]. rewrite run_cons in E. destruct (step builds calc wa e) as [[wb r]| |] eqn:S; try discriminate. cbn [obind fst] in E.
    destruct (during_step M A V builds calc wa e wb r d x I S B X ltac:(intros ->; apply NF; left; reflexivity)) as (B' & X' & K').
    rewrite <- K'. apply (IH wb w2); auto; [apply (step_ok M A V builds calc wa e wb r I S)|intros H; apply NF; right; exact H]. }
  destruct (G es' w1 w2 I1 ltac:(rewrite B1; left; reflexivity) ltac:(rewrite D1; exact X) E' NF) as (B2 & X2 & K2). rewrite K1 in K2.
  destruct (proj1 I d x X) as (KL & _). destruct (nth_error (w_kpms w) (d_kpm x)) as [q|] eqn:Q; [|apply nth_error_None in Q; lia].
  assert (DL : d < length (w_defs w2)) by (apply nth_error_Some; congruence).
  exists q. cbn [step]. unfold finish. rewrite (proj2 (in_busy M A V w2 d) B2), X2, K2. destruct (calc (k_model q) (k_core q) (d_args x)) as [v|]; (eexists; eexists; split; [reflexivity|]; split; [reflexivity|]; split; [reflexivity|]; split; [intros e; cbn [w_busy]; rewrite filter_In; destruct (Nat.eqb_spec e d) as [->|D]; cbn [negb]; intuition congruence|]; split; [reflexivity|]); cbn [w_defs];
    [apply nth_error_upd_eq; exact DL|exact X2].
Qed.
Print Assumptions C119_ends.

(** ** The model of the request *)
Definition C119_claim : Prop := forall M A V (builds : M -> bool) (calc : M -> M -> A -> option V) es1 w1 k q a w2 es2 w3 x,
  run builds calc es1 nothing = Ok w1 -> nth_error (w_kpms w1) k = Some q -> step builds calc w1 (Defer k a) = Ok (w2, Done) -> run builds calc es2 w2 = Ok w3 ->
  nth_error (w_defs w3) (length (w_defs w1)) = Some x -> d_computed x = true -> d_result x = calc (k_model q) (k_model q) a.
(** One solver for two models: the first request is answered with the second model. *)
Theorem C119_shared_refuted : ~ C119_claim.
Proof.
  intros H. specialize (H nat unit nat (fun _ => true) (fun m _ _ => Some m) [New 1] (World [Kpm 1 1] [] []) 0 (Kpm 1 1) tt _ [Set_model 0 2; Defer 0 tt; Result 0] _ _ eq_refl eq_refl eq_refl eq_refl eq_refl eq_refl).
  discriminate H.
Qed.
Print Assumptions C119_shared_refuted.
Theorem C119_created_partial : forall M A V (builds : M -> bool) (calc : M -> M -> A -> option V) es1 w1 k q a w2 es2 w3 x,
  run builds calc es1 nothing = Ok w1 -> nth_error (w_kpms w1) k = Some q -> step builds calc w1 (Defer k a) = Ok (w2, Done) -> run builds calc es2 w2 = Ok w3 ->
  (forall m, ~ In (Set_model k m) es2) ->
  nth_error (w_defs w3) (length (w_defs w1)) = Some x -> d_computed x = true -> d_result x = calc (k_model q) (k_model q) a.
Proof.
  intros M A V builds calc es1 w1 k q a w2 es2 w3 x E1 Q S E2 NS X C. pose proof (run_inv M A V builds calc es1 _ _ (nothing_inv M A V builds) E1) as I1.
  destruct (step_ok M A V builds calc w1 (Defer k a) w2 Done I1 S) as (I2 & _ & KK & _). pose proof (KK k q Q ltac:(discriminate)) as Q2.
  cbn [step] in S. unfold deferred_ldos in S. rewrite Q in S. destruct (builds (k_model q)) eqn:B; [|discriminate]. injection S as <-.
  assert (CQ : k_core q = k_model q) by (apply (proj2 (proj2 I1) k q Q B)).
  set (w2 := World (w_kpms w1) (w_defs w1 ++ [Def k a None false]) (w_busy w1)) in *.
  assert (X0 : nth_error (w_defs w2) (length (w_defs w1)) = Some (Def k a None false)) by (cbn [w2 w_defs]; rewrite nth_error_app2, Nat.sub_diag by lia; reflexivity).
  assert (G : forall es w w' d y, inv M A V builds w -> run builds calc es w = Ok w' -> nth_error (w_defs w) d = Some y -> nth_error (w_kpms w) k = Some q -> (forall m, ~ In (Set_model k m) es) ->
    (exists y', nth_error (w_defs w') d = Some y' /\ d_kpm y' = d_kpm y /\ d_args y' = d_args y) /\ nth_error (w_kpms w') k = Some q).
  { clear. induction es as [|e es IH]; intros w w' d y I E Y Q NS; [injection E as <-; eauto 6|]. rewrite run_cons in E. destruct (step builds calc w e) as [[w1 r]| |] eqn:S; try discriminate. cbn [obind fst] in E.
    destruct (step_ok M A V builds calc w e w1 r I S) as (I1 & _ & KK & CH). destruct (CH d y Y) as (y1 & Y1 & D).
    assert (D' : d_kpm y1 = d_kpm y /\ d_args y1 = d_args y) by (destruct D as [->|(_ & _ & q' & v & _ & _ & ->)]; auto).
    destruct (IH w1 w' d y1 I1 E Y1 (KK k q Q ltac:(intros m ->; apply (NS m); left; reflexivity)) ltac:(intros m H; apply (NS m); right; exact H)) as ((y' & Y' & P1 & P2) & Q').
    split; [|exact Q']. exists y'. destruct D' as (D1 & D2). rewrite P1, P2, D1, D2. auto. }
  destruct (value_from M A V builds calc es2 w2 w3 _ x I2 E2 X C ltac:(intros y Hy; rewrite X0 in Hy; injection Hy as <-; reflexivity)) as (ea & e & eb & wa & y & q' & -> & _ & Ra & Ya & Cy & Qa & RES).
  destruct (G _ w2 w3 _ _ I2 E2 X0 Q2 NS) as ((x' & X' & P1 & P2) & _). rewrite X in X'. injection X' as <-. cbn [d_kpm d_args] in P1, P2.
  destruct (G ea w2 wa _ _ I2 Ra X0 Q2 ltac:(intros m H; apply (NS m); apply in_or_app; left; exact H)) as (_ & Qa').
  rewrite RES, P2. rewrite P1 in Qa. rewrite Qa' in Qa. injection Qa as <-. rewrite CQ. reflexivity.
Qed.
Print Assumptions C119_created_partial.

(** ** Threads *)
Definition C119_race_claim : Prop := forall M A V (builds : M -> bool) (calc : M -> M -> A -> option V) es, (forall d, in_order d false es) -> left_alone es -> exists w, run builds calc es nothing = Ok w.
(** Two jobs of one solver at the same time *)
Theorem C119_race_refuted : ~ C119_race_claim.
Proof.
  intros H. specialize (H nat nat nat (fun _ => true) (fun m _ a => Some (m + a)) [New 1; Defer 0 5; Defer 0 6; Start 0; Start 1; Finish 0; Finish 1]).
  destruct H as (w & E).
  - intros d. cbn. destruct d as [|[|d]]; cbn; auto.
  - intros es1 k a es2 m E. assert (F : forall k m, ~ In (Set_model k m) [New 1; Defer 0 5; Defer 0 6; Start 0; Start 1; Finish 0; Finish 1]) by (intros ? ? F; cbn in F; intuition discriminate).
    intros I. apply (F k m). rewrite E. apply in_or_app. right. right. exact I.
  - discriminate E.
Qed.
Print Assumptions C119_race_refuted.

Section NoRace.
  Variables M A V : Type.
  Variable builds : M -> bool.
  Variable calc : M -> M -> A -> option V.
  Notation inv := (inv M A V builds).
  Notation step := (step (V := V) builds calc).
  Notation run := (run (V := V) builds calc).

  Lemma same_kpms : forall (l l' : list (deferred A V)), length l' = length l ->
    (forall d x, nth_error l d = Some x -> exists x', nth_error l' d = Some x' /\ d_kpm x' = d_kpm x) -> map d_kpm l' = map d_kpm l.
  Proof.
    induction l as [|x l IH]; intros [|y l'] L H; try discriminate; [reflexivity|]. cbn [map]. destruct (H 0 x eq_refl) as (z & Z & K). injection Z as <-. rewrite K. f_equal. apply IH; [injection L as L; exact L|].
    intros d z Hz. apply (H (S d) z Hz).
  Qed.
  Lemma changes_kpm : forall (w : world M A V) e d x x', changes M A V calc w e d x x' -> d_kpm x' = d_kpm x.
  Proof. intros w e d x x' [->|(_ & _ & q & v & _ & _ & ->)]; reflexivity. Qed.
  Lemma kpm_index : forall (l : list (deferred A V)) i j x y, NoDup (map d_kpm l) -> nth_error l i = Some x -> nth_error l j = Some y -> d_kpm x = d_kpm y -> i = j.
  Proof.
    intros l i j x y N X Y E. apply (proj1 (NoDup_nth_error (map d_kpm l)) N); [rewrite map_length; apply nth_error_Some; congruence|].
    rewrite (map_nth_error d_kpm i l X), (map_nth_error d_kpm j l Y), E. reflexivity.
  Qed.
  Lemma nodup_front : forall (l r : list nat), NoDup (l ++ r) -> NoDup l.
  Proof. induction l as [|x l IH]; intros r H; [constructor|]. inversion H as [|? ? N1 N2]; subst. constructor; [intros F; apply N1, in_or_app; auto|apply (IH r N2)]. Qed.

  Lemma start_runs : forall w d, inv w -> NoDup (map d_kpm (w_defs w)) -> ~ In d (w_busy w) -> exists w' r, start w d = Ok (w', r).
  Proof.
    intros w d I N NB. unfold start. destruct (nth_error (w_defs w) d) as [x|] eqn:X; [|eauto]. destruct (d_computed x); [eauto|].
    destruct (busy w (d_kpm x)) eqn:B; [|eauto]. exfalso. apply (busy_iff M A V w (d_kpm x)) in B. destruct B as (d' & x' & H & X' & K). apply NB. rewrite (kpm_index (w_defs w) d d' x x' N X X' (eq_sym K)). exact H.
  Qed.
  Lemma finish_runs : forall w d, inv w -> exists w' r, finish calc w d = Ok (w', r).
  Proof.
    intros w d (I1 & I2 & _). unfold finish. destruct (existsb (Nat.eqb d) (w_busy w)) eqn:B; [|eauto]. apply (in_busy M A V w d) in B. destruct (I2 d B) as (x & X & _). rewrite X.
    destruct (I1 d x X) as (L & _). destruct (nth_error (w_kpms w) (d_kpm x)) as [q|] eqn:Q; [|apply nth_error_None in Q; lia]. destruct (calc (k_model q) (k_core q) (d_args x)); eauto.
  Qed.

  Lemma no_race_from : forall es w fl, inv w -> (forall d, In d (w_busy w) -> fl d = true) -> (forall d, in_order d (fl d) es) ->
    NoDup (map d_kpm (w_defs w) ++ asked es) -> (forall x m, In x (w_defs w) -> ~ In (Set_model (d_kpm x) m) es) -> left_alone es -> exists w', run es w = Ok w'.
  Proof.
    induction es as [|e es IH]; intros w fl I B O N S L; [exists w; reflexivity|]. rewrite run_cons.
    assert (L' : left_alone es) by (intros es1 k a es2 m E; apply (L (e :: es1) k a es2 m); rewrite E; reflexivity).
    assert (S' : forall x m, In x (w_defs w) -> ~ In (Set_model (d_kpm x) m) es) by (intros x m H F; apply (S x m H); right; exact F).
    assert (GO : forall w1 r fl1, step w e = Ok (w1, r) -> (forall d, In d (w_busy w1) -> fl1 d = true) -> (forall d, in_order d (fl1 d) es) ->
      NoDup (map d_kpm (w_defs w1) ++ asked es) -> (forall x m, In x (w_defs w1) -> ~ In (Set_model (d_kpm x) m) es) -> exists w', obind (step w e) (fun r => run es (fst r)) = Ok w').
    { intros w1 r fl1 E B1 O1 N1 S1. rewrite E. cbn [obind fst]. apply (IH w1 fl1); auto. apply (step_ok M A V builds calc w e w1 r I E). }
    assert (NF : NoDup (map d_kpm (w_defs w))) by (apply (nodup_front _ _ N)).
    destruct e as [m|k m|k a|d|d|d].
    - destruct (builds m) eqn:Bm; (eapply (GO _ _ fl); [cbn [Deferred.step]; rewrite Bm; reflexivity|exact B|exact O|exact N|exact S']).
    - assert (NB : busy w k = false).
      { apply not_true_is_false. intros F. apply (busy_iff M A V w k) in F. destruct F as (d & x & _ & X & K). apply (S x m (nth_error_In _ _ X)). left. rewrite K. reflexivity. }
      destruct (nth_error (w_kpms w) k) as [q|] eqn:Q; (eapply (GO _ _ fl); [cbn [Deferred.step]; unfold set_model; rewrite Q; rewrite ?NB; reflexivity|exact B|exact O|exact N|exact S']).
    - change (asked (Defer k a :: es)) with (k :: asked es) in N.
      assert (R : forall w1 r, step w (Defer k a) = Ok (w1, r) -> w1 = w -> exists w', obind (step w (Defer k a)) (fun r => run es (fst r)) = Ok w').
      { intros w1 r E ->. apply (GO w r fl E B O); [apply NoDup_remove_1 in N; exact N|exact S']. }
      destruct (nth_error (w_kpms w) k) as [q|] eqn:Q; [destruct (builds (k_model q)) eqn:Bm|].
      + eapply (GO _ _ fl); [cbn [Deferred.step]; unfold deferred_ldos; rewrite Q, Bm; reflexivity|exact B|exact O| |]; cbn [w_defs].
        * rewrite map_app, <- app_assoc. exact N.
        * intros x m H. apply in_app_or in H. destruct H as [H|[<-|[]]]; [apply S', H|]. cbn [d_kpm]. apply (L [] k a es m). reflexivity.
      + eapply R; [cbn [Deferred.step]; unfold deferred_ldos; rewrite Q, Bm; reflexivity|reflexivity].
      + eapply R; [cbn [Deferred.step]; unfold deferred_ldos; rewrite Q; reflexivity|reflexivity].
    - assert (F0 : fl d = false) by (specialize (O d); cbn [in_order] in O; rewrite Nat.eqb_refl in O; apply O).
      assert (NB : ~ In d (w_busy w)) by (intros H; apply B in H; congruence).
      destruct (start_runs w d I NF NB) as (w1 & r & E). destruct (start_ok M A V builds w d w1 r I E) as (_ & _ & D1 & _ & B1 & _).
      apply (GO w1 r (fun e => if e =? d then true else fl e) E).
      + intros e He. destruct (Nat.eqb_spec e d) as [->|H]; [reflexivity|]. destruct (B1 e He) as [->|H']; [congruence|apply B, H'].
      + intros e. specialize (O e). cbn [in_order] in O. rewrite (Nat.eqb_sym d e) in O. destruct (e =? d); [apply O|exact O].
      + rewrite D1. exact N.
      + rewrite D1. exact S'.
    - destruct (finish_runs w d I) as (w1 & r & E). destruct (finish_ok M A V builds calc w d w1 r I E) as (_ & _ & L1 & B1 & B2 & _ & _ & CH & _).
      assert (KE : map d_kpm (w_defs w1) = map d_kpm (w_defs w)) by (apply same_kpms; [exact L1|]; intros e x X; destruct (CH e x X) as (x' & X' & C); exists x'; split; [exact X'|apply (changes_kpm _ _ _ _ _ C)]).
      apply (GO w1 r (fun e => if e =? d then false else fl e) E).
      + intros e He. destruct (Nat.eqb_spec e d) as [->|H]; [contradiction|apply B, B1, He].
      + intros e. specialize (O e). cbn [in_order] in O. rewrite (Nat.eqb_sym d e) in O. destruct (e =? d); exact O.
      + rewrite KE. exact N.
      + intros x m H. assert (H' : In (d_kpm x) (map d_kpm (w_defs w))) by (rewrite <- KE; apply in_map, H). apply in_map_iff in H'. destruct H' as (y & K & Hy). rewrite <- K. apply S', Hy.
    - assert (F0 : fl d = false) by (specialize (O d); cbn [in_order] in O; rewrite Nat.eqb_refl in O; apply O).
      assert (NB : ~ In d (w_busy w)) by (intros H; apply B in H; congruence).
      destruct (start_runs w d I NF NB) as (w1 & r & E). destruct (start_ok M A V builds w d w1 r I E) as (I1 & _ & D1 & V1 & B1 & _ & DN).
      assert (O' : forall e, in_order e (if e =? d then false else fl e) es).
      { intros e. specialize (O e). cbn [in_order] in O. rewrite (Nat.eqb_sym d e) in O. destruct (e =? d); [apply O|exact O]. }
      assert (RUN : exists w2 r2, step w (Result d) = Ok (w2, r2) /\ (forall e, In e (w_busy w2) -> e <> d /\ In e (w_busy w)) /\ map d_kpm (w_defs w2) = map d_kpm (w_defs w)).
      { cbn [Deferred.step]. unfold result. rewrite E. cbn [obind snd fst]. destruct r as [| |v]; [| |exfalso; apply (V1 v); reflexivity].
        - destruct (finish_runs w1 d I1) as (w2 & r2 & E2). destruct (finish_ok M A V builds calc w1 d w2 r2 I1 E2) as (_ & _ & L2 & C1 & C2 & _ & _ & CH & _).
          rewrite E2. cbn [obind snd fst]. destruct (DN eq_refl) as (x & X & _). rewrite D1 in CH. destruct (CH d x X) as (x2 & X2 & _).
          assert (KE : map d_kpm (w_defs w2) = map d_kpm (w_defs w)) by (rewrite D1 in L2; apply same_kpms; [exact L2|]; intros e y Y; destruct (CH e y Y) as (y' & Y' & C); exists y'; split; [exact Y'|apply (changes_kpm _ _ _ _ _ C)]).
          assert (BB : forall e, In e (w_busy w2) -> e <> d /\ In e (w_busy w)).
          { intros e He. assert (e <> d) by (intros ->; contradiction). split; [assumption|]. destruct (B1 e (C1 e He)); [contradiction|assumption]. }
          destruct r2; [rewrite X2| |rewrite X2]; (eexists; eexists; split; [reflexivity|]; split; [exact BB|exact KE]).
        - eexists. eexists. split; [reflexivity|]. assert (W1 : w1 = w).
          { unfold start in E. destruct (nth_error (w_defs w) d) as [x|]; [destruct (d_computed x); [discriminate|destruct (busy w (d_kpm x)); discriminate]|]. injection E as <-. reflexivity. }
          rewrite W1. split; [|reflexivity]. intros e He. split; [intros ->; contradiction|exact He]. }
      destruct RUN as (w2 & r2 & E2 & BB & KE). apply (GO w2 r2 (fun e => if e =? d then false else fl e) E2).
      + intros e He. destruct (BB e He) as (H1 & H2). destruct (Nat.eqb_spec e d) as [->|H]; [contradiction|apply B, H2].
      + exact O'.
      + rewrite KE. exact N.
      + intros x m H. assert (H' : In (d_kpm x) (map d_kpm (w_defs w))) by (rewrite <- KE; apply in_map, H). apply in_map_iff in H'. destruct H' as (y & K & Hy). rewrite <- K. apply S', Hy.
  Qed.
End NoRace.

(** A solver for every job: any interleaving of the threads is defined. *)
Theorem C119_race_partial : forall M A V (builds : M -> bool) (calc : M -> M -> A -> option V) es,
  (forall d, in_order d false es) -> left_alone es -> NoDup (asked es) -> exists w, run builds calc es nothing = Ok w.
Proof.
  intros M A V builds calc es O L N. apply (no_race_from M A V builds calc es nothing (fun _ => false) (nothing_inv M A V builds)); auto.
Qed.
Print Assumptions C119_race_partial.

(** ** Example: two jobs in two threads, the second one ends first; a failing model is reported and can be tried again *)
Definition two_jobs : list (event nat nat) := [New 1; Defer 0 5; Start 0; New 2; Defer 1 6; Start 1; Finish 1; Result 1; Finish 0; Result 0].
Example C119_example : (forall d, in_order d false two_jobs) /\ NoDup (asked two_jobs) /\
  run (V := nat) (fun _ => true) (fun m _ a => Some (10 * m + a)) two_jobs nothing = Ok (World [Kpm 1 1; Kpm 2 2] [Def 0 5 (Some 15) true; Def 1 6 (Some 26) true] []).
Proof. split; [intros [|[|d]]; cbn; auto|]. split; [|reflexivity]. cbn. repeat constructor; cbn; intuition lia. Qed.
Example C119_example_retry : let calc := fun m _ a => if m =? 3 then None else Some (10 * m + a) in
  obind (run (V := nat) (fun _ => true) calc [New 3; Defer 0 5] nothing) (fun w =>
  obind (step (fun _ => true) calc w (Result 0)) (fun r => obind (run (fun _ => true) calc [Set_model 0 4] (fst r)) (fun w' => omap (fun r' => (snd r, snd r')) (step (fun _ => true) calc w' (Result 0)))))
  = Ok (Raised, Value (Some 45)).
Proof. reflexivity. Qed.
