(* C118: recorded calls and the files named after them. *)
From Verif Require Import Base CallSig.
From Coq Require Import Lia String Ascii List.
Import ListNotations.
Arguments Func {V}. Arguments f_only {V}. Arguments f_pos {V}. Arguments f_args {V}. Arguments f_kwonly {V}. Arguments f_kwargs {V}. Arguments f_default {V}. Arguments Locals {V}. Arguments l_var {V}. Arguments l_args {V}. Arguments l_kwargs {V}.
Arguments CallSig {V}. Arguments s_positional {V}. Arguments s_args {V}. Arguments s_kwonly {V}. Arguments s_kwargs {V}. Arguments read {V}. Arguments get_call_signature {V}. Arguments named_args {V}. Arguments format_args {V}. Arguments make_filename {V}. Arguments named {V}. Arguments dict_set {V}. Arguments dict_update {V}.

(** ** How Python binds the arguments of a call *)
Record bound (V : Type) := Bound { b_params : list (string * V); b_args : list V; b_kwargs : list (string * V) }.
Arguments Bound {V}. Arguments b_params {V}. Arguments b_args {V}. Arguments b_kwargs {V}.
Definition mem (x : string) (l : list string) : bool := existsb (String.eqb x) l.
Fixpoint lookup {V} (l : list (string * V)) (x : string) : option V := match l with [] => None | (k, v) :: r => if String.eqb k x then Some v else lookup r x end.
Fixpoint all_of {V} (f : string -> option V) (l : list string) : option (list (string * V)) :=
  match l with [] => Some [] | x :: r => match f x, all_of f r with Some v, Some t => Some ((x, v) :: t) | _, _ => None end end.
Definition empty {T} (l : list T) : bool := match l with [] => true | _ => false end.
(** Given values go to the first parameters and then to *args; keywords to the parameters of their name and then to **kwargs; the rest gets its default.
    [None]: TypeError. *)
Definition call {V} (f : func V) (pos : list V) (kws : list (string * V)) : option (bound V) :=
  let first := f_only f ++ f_pos f in
  let given := combine first pos in
  let rest := filter (fun x => negb (mem (fst x) (f_pos f ++ f_kwonly f))) kws in
  if negb (f_args f) && negb (empty (skipn (length first) pos)) then None
  else if existsb (fun x => mem (fst x) (map fst given) && mem (fst x) (f_pos f)) kws then None
  else if negb (f_kwargs f) && negb (empty rest) then None
  else
    let value x := match lookup given x with Some v => Some v | None => match (if mem x (f_only f) then None else lookup kws x) with Some v => Some v | None => f_default f x end end in
    match all_of value (first ++ f_kwonly f) with
    | Some p => Some (Bound p (skipn (length first) pos) rest)
    | None => None
    end.
(** Parameter names differ; so do the keywords of a call (otherwise it is a SyntaxError). *)
Definition well_formed {V} (f : func V) : Prop := NoDup ((f_only f ++ f_pos f) ++ f_kwonly f).
(** The local variables when the function begins. *)
Definition entry {V} (b : bound V) : locals V := Locals (lookup (b_params b)) (b_args b) (b_kwargs b).
(** Arguments of a text: those without a name, those with one. *)
Fixpoint unnamed {V} (l : list (option string * V)) : list V := match l with [] => [] | (None, v) :: r => v :: unnamed r | _ :: r => unnamed r end.
Fixpoint keywords {V} (l : list (option string * V)) : list (string * V) := match l with [] => [] | (Some k, v) :: r => (k, v) :: keywords r | _ :: r => keywords r end.

(** ** Lemmas *)
Lemma mem_in : forall x l, mem x l = true <-> In x l.
Proof. intros x l. unfold mem. rewrite existsb_exists. split; [intros (y & H & E); apply String.eqb_eq in E; subst; exact H|intros H; exists x; split; [exact H|apply String.eqb_refl]]. Qed.
Lemma mem_not : forall x l, mem x l = false <-> ~ In x l.
Proof. intros x l. rewrite <- mem_in. destruct (mem x l); split; congruence. Qed.
Lemma all_of_names : forall {V} (f : string -> option V) l p, all_of f l = Some p -> map fst p = l.
Proof. intros V f l. induction l as [|x l IH]; intros p H; cbn in H; [injection H as <-; reflexivity|]. destruct (f x); [|discriminate]. destruct (all_of f l) as [t|]; [|discriminate]. injection H as <-. cbn. f_equal. auto. Qed.
Lemma all_of_ext : forall {V} (f g : string -> option V) l, (forall x, In x l -> f x = g x) -> all_of f l = all_of g l.
Proof. intros V f g l. induction l as [|x l IH]; intros H; [reflexivity|]. cbn. rewrite (H x) by (left; reflexivity). rewrite IH; [reflexivity|]. intros; apply H; right; assumption. Qed.
Lemma lookup_none : forall {V} (l : list (string * V)) x, ~ In x (map fst l) -> lookup l x = None.
Proof. intros V l x. induction l as [|[k v] l IH]; intros H; [reflexivity|]. cbn in *. destruct (String.eqb_spec k x); [subst; exfalso; apply H; left; reflexivity|]. apply IH. intros F. apply H. right. exact F. Qed.
Lemma lookup_app : forall {V} (l l' : list (string * V)) x, lookup (l ++ l') x = match lookup l x with Some v => Some v | None => lookup l' x end.
Proof. intros V l l' x. induction l as [|[k v] l IH]; [reflexivity|]. cbn. destruct (String.eqb k x); [reflexivity|exact IH]. Qed.
Lemma all_of_lookup : forall {V} (p : list (string * V)), NoDup (map fst p) -> all_of (lookup p) (map fst p) = Some p.
Proof.
  intros V p. induction p as [|[k v] p IH]; intros H; [reflexivity|]. cbn [map fst] in *. inversion H as [|? ? H1 H2]; subst. cbn [all_of lookup]. rewrite String.eqb_refl.
  rewrite (all_of_ext _ (lookup p)); [rewrite IH by exact H2; reflexivity|]. intros x Hx. destruct (String.eqb_spec k x); [subst; contradiction|reflexivity].
Qed.
Lemma read_all : forall {V} (l : locals V) names, read l names = match all_of (l_var l) names with Some p => Ok p | None => Throw end.
Proof. intros V l names. induction names as [|x r IH]; [reflexivity|]. cbn. destruct (l_var l x); [|reflexivity]. rewrite IH. destruct (all_of (l_var l) r); reflexivity. Qed.
Lemma all_of_app : forall {V} (f : string -> option V) a b, all_of f (a ++ b) = match all_of f a, all_of f b with Some p, Some q => Some (p ++ q)%list | _, _ => None end.
Proof. intros V f a b. induction a as [|x a IH]; cbn; [destruct (all_of f b); reflexivity|]. rewrite IH. destruct (f x); [|reflexivity]. destruct (all_of f a); [|reflexivity]. destruct (all_of f b); reflexivity. Qed.

(** What a successful call has. *)
Lemma call_facts : forall {V} (f : func V) pos kws b, well_formed f -> NoDup (map fst kws) -> call f pos kws = Some b ->
  map fst (b_params b) = ((f_only f ++ f_pos f) ++ f_kwonly f)%list /\ (f_args f = false -> b_args b = []) /\ (f_kwargs f = false -> b_kwargs b = []) /\
  NoDup (map fst (b_kwargs b)) /\ (forall x, In x (map fst (b_kwargs b)) -> ~ In x (f_pos f ++ f_kwonly f)).
Proof.
  intros V f pos kws b Hw Hk H. unfold call in H. set (first := (f_only f ++ f_pos f)%list) in *. set (rest := filter _ kws) in *.
  destruct (negb (f_args f) && negb (empty (skipn (length first) pos))) eqn:C1; [discriminate|]. destruct (existsb _ kws); [discriminate|]. destruct (negb (f_kwargs f) && negb (empty rest)) eqn:C3; [discriminate|].
  destruct (all_of _ (first ++ f_kwonly f)) as [p|] eqn:A; [|discriminate]. injection H as <-. cbn [b_params b_args b_kwargs]. split; [eapply all_of_names; exact A|]. split; [|split; [|split]].
  - intros E. rewrite E in C1. cbn in C1. destruct (skipn _ pos); [reflexivity|discriminate].
  - intros E. rewrite E in C3. cbn in C3. destruct rest; [reflexivity|discriminate].
  - unfold rest. clear - Hk. induction kws as [|[k v] kws IH]; [constructor|]. cbn in *. inversion Hk as [|? ? H1 H2]; subst. destruct (negb _); [|auto]. cbn. constructor; [|auto]. intros F. apply H1. apply in_map_iff in F. destruct F as (y & E & F). apply filter_In in F. apply in_map_iff. exists y. tauto.
  - intros x Hx. apply in_map_iff in Hx. destruct Hx as (y & <- & F). apply filter_In in F. destruct F as [_ F]. apply negb_true_iff in F. apply mem_not. exact F.
Qed.
Lemma unnamed_app : forall {V} (a b : list (option string * V)), unnamed (a ++ b) = (unnamed a ++ unnamed b)%list.
Proof. intros V a b. induction a as [|[[k|] v] a IH]; cbn; [reflexivity|exact IH|rewrite IH; reflexivity]. Qed.
Lemma keywords_app : forall {V} (a b : list (option string * V)), keywords (a ++ b) = (keywords a ++ keywords b)%list.
Proof. intros V a b. induction a as [|[[k|] v] a IH]; cbn; [reflexivity|rewrite IH; reflexivity|exact IH]. Qed.
Lemma unnamed_named : forall {V} (l : list (string * V)), unnamed (map named l) = []. Proof. intros V l. induction l; [reflexivity|assumption]. Qed.
Lemma keywords_named : forall {V} (l : list (string * V)), keywords (map named l) = l. Proof. intros V l. induction l as [|[k v] l IH]; [reflexivity|]. cbn. rewrite IH. reflexivity. Qed.
Lemma unnamed_none : forall {V T} (g : T -> V) (l : list T), unnamed (map (fun x => (None, g x)) l) = map g l. Proof. intros V T g l. induction l as [|x l IH]; [reflexivity|]. cbn. rewrite IH. reflexivity. Qed.
Lemma keywords_none : forall {V T} (g : T -> V) (l : list T), keywords (map (fun x => (None, g x)) l) = []. Proof. intros V T g l. induction l as [|x l IH]; [reflexivity|]. assumption. Qed.

Lemma split_names : forall {V} (p : list (string * V)) a b, map fst p = (a ++ b)%list -> exists pa pb, p = (pa ++ pb)%list /\ map fst pa = a /\ map fst pb = b.
Proof.
  intros V p a b H. exists (firstn (length a) p), (skipn (length a) p). rewrite firstn_skipn. split; [reflexivity|]. rewrite <- firstn_map, <- skipn_map, H. split.
  - rewrite firstn_app, firstn_all, Nat.sub_diag. cbn. apply app_nil_r.
  - rewrite skipn_app, skipn_all, Nat.sub_diag. reflexivity.
Qed.
(** The signature taken when a function begins, for a function without positional-only parameters. *)
Lemma entry_sig : forall {V} (f : func V) pos kws b, f_only f = [] -> well_formed f -> NoDup (map fst kws) -> call f pos kws = Some b ->
  exists p k, b_params b = (p ++ k)%list /\ map fst p = f_pos f /\ map fst k = f_kwonly f /\ get_call_signature f (entry b) = Ok (CallSig p (b_args b) k (b_kwargs b)).
Proof.
  intros V f pos kws b Ho Hw Hk H. destruct (call_facts f pos kws b Hw Hk H) as (F1 & F2 & F3 & _). unfold well_formed in Hw. rewrite Ho in *. cbn [app] in *.
  destruct (split_names _ _ _ F1) as (p & k & E & Ep & Ek). exists p, k. split; [exact E|]. split; [exact Ep|]. split; [exact Ek|].
  assert (N : NoDup (map fst (b_params b))) by (rewrite F1; exact Hw).
  assert (A : all_of (lookup (b_params b)) (f_pos f ++ f_kwonly f) = Some (p ++ k)%list) by (rewrite <- F1, <- E; apply all_of_lookup; exact N).
  rewrite all_of_app in A. unfold get_call_signature. rewrite !read_all. cbn [entry l_var l_args l_kwargs].
  destruct (all_of (lookup (b_params b)) (f_pos f)) as [p'|] eqn:A1; [|discriminate]. destruct (all_of (lookup (b_params b)) (f_kwonly f)) as [k'|] eqn:A2; [|discriminate]. injection A as A.
  assert (L : length p' = length p) by (apply all_of_names in A1; rewrite <- (map_length fst p'), A1, <- Ep, map_length; reflexivity).
  assert (Q : p' = p /\ k' = k). { clear - A L. revert p A L. induction p' as [|x p' IH]; intros [|y p] A L; try discriminate; [auto|]. injection L as L. injection A as -> A. destruct (IH p A L). subst. auto. }
  destruct Q as [-> ->]. cbn [obind]. destruct (f_args f) eqn:Ea; destruct (f_kwargs f) eqn:Eb; rewrite ?F2, ?F3 by reflexivity; reflexivity.
Qed.

(** ** The text of a call *)
(** Calling the function as the text says binds the same arguments. *)
Definition C118_repr_claim : Prop := forall V (f : func V) pos kws b, well_formed f -> NoDup (map fst kws) -> call f pos kws = Some b ->
  exists s, get_call_signature f (entry b) = Ok s /\ call f (unnamed (format_args s)) (keywords (format_args s)) = Some b.
Lemma lookup_combine : forall {V} (p : list (string * V)) extra, combine (map fst p) (map snd p ++ extra) = p.
Proof. intros V p extra. induction p as [|[k v] p IH]; [reflexivity|]. cbn. rewrite IH. reflexivity. Qed.
Lemma filter_all : forall {T} (g : T -> bool) l, (forall x, In x l -> g x = true) -> filter g l = l.
Proof. intros T g l. induction l as [|x l IH]; intros H; [reflexivity|]. cbn. rewrite (H x) by (left; reflexivity). rewrite IH; [reflexivity|]. intros; apply H; right; assumption. Qed.
Lemma filter_no : forall {T} (g : T -> bool) l, (forall x, In x l -> g x = false) -> filter g l = [].
Proof. intros T g l. induction l as [|x l IH]; intros H; [reflexivity|]. cbn. rewrite (H x) by (left; reflexivity). apply IH. intros; apply H; right; assumption. Qed.
Theorem C118_repr_partial : forall V (f : func V) pos kws b, f_only f = [] -> well_formed f -> NoDup (map fst kws) -> call f pos kws = Some b ->
  exists s, get_call_signature f (entry b) = Ok s /\ call f (unnamed (format_args s)) (keywords (format_args s)) = Some b.
Proof.
  intros V f pos kws b Ho Hw Hk H. destruct (entry_sig f pos kws b Ho Hw Hk H) as (p & k & E & Ep & Ek & S). destruct (call_facts f pos kws b Hw Hk H) as (F1 & F2 & F3 & F4 & F5).
  eexists. split; [exact S|]. unfold format_args. cbn [s_positional s_args s_kwonly s_kwargs]. unfold well_formed in Hw. rewrite Ho in Hw. cbn [app] in Hw.
  assert (N : NoDup (map fst (p ++ k))) by (rewrite map_app, Ep, Ek; exact Hw).
  assert (Kr : forall q, (forall x, In x (map fst q) -> In x (f_pos f ++ f_kwonly f)) -> filter (fun x => negb (mem (fst x) (f_pos f ++ f_kwonly f))) (q ++ b_kwargs b) = b_kwargs b).
  { intros q Hq. rewrite filter_app, filter_no, filter_all; [reflexivity| |].
    - intros x Hx. apply negb_true_iff. apply mem_not. apply F5. apply in_map. exact Hx.
    - intros x Hx. apply negb_false_iff. apply mem_in. apply Hq. apply in_map. exact Hx. }
  assert (Kn : forall x, In x (f_pos f ++ f_kwonly f) -> lookup (b_kwargs b) x = None) by (intros x Hx; apply lookup_none; intros G; exact (F5 x G Hx)).
  assert (Ka : negb (f_kwargs f) && negb (empty (b_kwargs b)) = false) by (destruct (f_kwargs f) eqn:Q; [reflexivity|rewrite F3 by reflexivity; reflexivity]).
  assert (Kv : forall x, In x (f_pos f ++ f_kwonly f) -> exists v, lookup (p ++ k) x = Some v).
  { intros x Hx. rewrite <- Ep, <- Ek, <- map_app in Hx. clear - Hx. induction (p ++ k)%list as [|[y v] l IH]; [contradiction|]. cbn in *. destruct (String.eqb_spec y x); [eauto|]. destruct Hx; [contradiction|auto]. }
  assert (Kp : all_of (lookup (p ++ k)) (f_pos f ++ f_kwonly f) = Some (p ++ k)%list) by (rewrite <- Ep, <- Ek, <- map_app; apply all_of_lookup; exact N).
  assert (Eb : forall a, a = b_args b -> Some (Bound (p ++ k) a (b_kwargs b)) = Some b) by (intros a ->; destruct b; cbn in *; subst; reflexivity).
  destruct (b_args b) as [|a0 args] eqn:Ea.
  - cbn [map]. rewrite !unnamed_app, !unnamed_named, !keywords_app, !keywords_named. cbn [app keywords unnamed]. unfold call. rewrite Ho. cbn [app]. rewrite skipn_nil. cbn [empty negb]. rewrite andb_false_r.
    assert (G0 : combine (f_pos f) (@nil V) = []) by (destruct (f_pos f); reflexivity). rewrite G0. cbn [map mem existsb lookup].
    assert (G1 : existsb (fun x : string * V => mem (fst x) [] && mem (fst x) (f_pos f)) (p ++ k ++ b_kwargs b) = false) by (generalize (p ++ k ++ b_kwargs b)%list; intros l; induction l; [reflexivity|assumption]). cbn [mem existsb] in G1. rewrite G1.
    rewrite app_assoc, Kr by (intros x Hx; rewrite map_app, Ep, Ek in Hx; exact Hx). rewrite Ka.
    rewrite (all_of_ext _ (lookup (p ++ k))); [rewrite Kp; apply Eb; reflexivity|]. intros x Hx. rewrite lookup_app. destruct (Kv x Hx) as [v ->]. reflexivity.
  - rewrite !unnamed_app, !unnamed_named, !keywords_app, !keywords_named. rewrite (unnamed_none snd), (keywords_none snd), (unnamed_none (fun x => x)), (keywords_none (fun x => x)), map_id. cbn [app]. rewrite !app_nil_r. unfold call. rewrite Ho. cbn [app].
    assert (G0 : combine (f_pos f) (map snd p ++ a0 :: args) = p) by (rewrite <- Ep; apply lookup_combine). rewrite !G0.
    assert (Sk : skipn (length (f_pos f)) (map snd p ++ a0 :: args) = (a0 :: args)%list). { rewrite <- Ep, map_length, <- (map_length snd p), skipn_app, skipn_all, Nat.sub_diag. reflexivity. }
    rewrite Sk. destruct (f_args f) eqn:Fa; [|discriminate (F2 eq_refl)]. cbn [negb andb].
    assert (G1 : existsb (fun x : string * V => mem (fst x) (map fst p) && mem (fst x) (f_pos f)) (k ++ b_kwargs b) = false).
    { apply not_true_is_false. intros G. apply existsb_exists in G. destruct G as (x & Hx & G). apply andb_true_iff in G. destruct G as [_ G]. apply mem_in in G. apply in_app_or in Hx. destruct Hx as [Hx|Hx].
      - rewrite map_app in N. clear - N G Hx Ep. rewrite <- Ep in G. clear Ep. apply (in_map fst) in Hx. induction (map fst p) as [|y l IH]; [contradiction|]. cbn in N. inversion N as [|? ? N1 N2]; subst. destruct G as [->|G]; [apply N1; apply in_or_app; right; exact Hx|auto].
      - apply (F5 (fst x)); [apply in_map; exact Hx|apply in_or_app; left; exact G]. }
    rewrite G1. rewrite Kr by (intros x Hx; rewrite Ek in Hx; apply in_or_app; right; exact Hx). rewrite Ka.
    rewrite (all_of_ext _ (lookup (p ++ k))); [rewrite Kp; apply Eb; reflexivity|]. intros x Hx. rewrite !lookup_app. destruct (Kv x Hx) as [v Q]. rewrite lookup_app in Q. destruct (lookup p x); [reflexivity|]. cbn [mem existsb]. rewrite Q. reflexivity.
Qed.
Print Assumptions C118_repr_partial.
(** A positional-only parameter is left out: the text is another call, or none. *)
Definition only_ex : func nat := Func ["x"%string] [] false [] false (fun _ => Some 0).
Theorem C118_repr_refuted : ~ C118_repr_claim.
Proof.
  intros H. destruct (H nat only_ex [5] [] (Bound [("x"%string, 5)] [] [])) as (s & E & R).
  - unfold well_formed. cbn. constructor; [intros []|constructor].
  - constructor.
  - reflexivity.
  - cbn in E. injection E as <-. vm_compute in R. discriminate R.
Qed.
Print Assumptions C118_repr_refuted.
(** Arguments without a name come first, as Python demands. *)
Theorem C118_order : forall V (s : callsig V), format_args s = (map (pair None) (unnamed (format_args s)) ++ map named (keywords (format_args s)))%list.
Proof.
  intros V [p a k w]. unfold format_args. cbn [s_positional s_args s_kwonly s_kwargs]. destruct a as [|a0 a].
  - cbn [map app]. rewrite !unnamed_app, !keywords_app, !unnamed_named, !keywords_named. cbn [app unnamed keywords map]. rewrite !map_app. reflexivity.
  - rewrite !unnamed_app, !keywords_app, !unnamed_named, !keywords_named. rewrite (unnamed_none snd), (keywords_none snd), (unnamed_none (fun x => x)), (keywords_none (fun x => x)), map_id. cbn [app]. rewrite !app_nil_r, !map_app, map_map, <- !app_assoc. reflexivity.
Qed.
Print Assumptions C118_order.

(** ** Named arguments *)
Lemma dict_set_new : forall {V} (d : list (string * V)) k v, ~ In k (map fst d) -> dict_set d k v = (d ++ [(k, v)])%list.
Proof. intros V d k v. induction d as [|[k' v'] d IH]; intros H; [reflexivity|]. cbn in *. destruct (String.eqb_spec k' k); [subst; exfalso; apply H; left; reflexivity|]. rewrite IH; [reflexivity|]. intros F. apply H. right. exact F. Qed.
Lemma dict_update_new : forall {V} (e d : list (string * V)), NoDup (map fst (d ++ e)) -> dict_update d e = (d ++ e)%list.
Proof.
  intros V e. induction e as [|[k v] e IH]; intros d H; [rewrite app_nil_r; reflexivity|]. unfold dict_update. cbn [fold_left fst snd]. fold (dict_update (dict_set d k v) e). rewrite map_app in H. cbn [map fst] in H.
  rewrite dict_set_new; [|apply NoDup_remove_2 in H; intros F; apply H; apply in_or_app; left; exact F]. rewrite IH; [rewrite <- app_assoc; reflexivity|]. rewrite <- app_assoc, map_app. exact H.
Qed.
Lemma nodup_left : forall {T} (a b : list T), NoDup (a ++ b) -> NoDup a.
Proof. intros T a b. induction a as [|x a IH]; intros H; [constructor|]. cbn in H. inversion H as [|? ? H1 H2]; subst. constructor; [|auto]. intros F. apply H1. apply in_or_app. left. exact F. Qed.
(** All arguments but those in *args, each once, with the value it was called with, in the order of the parameters. *)
Theorem C118_named : forall V (f : func V) pos kws b, f_only f = [] -> well_formed f -> NoDup (map fst kws) -> call f pos kws = Some b ->
  exists s, get_call_signature f (entry b) = Ok s /\ named_args s = (b_params b ++ b_kwargs b)%list.
Proof.
  intros V f pos kws b Ho Hw Hk H. destruct (entry_sig f pos kws b Ho Hw Hk H) as (p & k & E & Ep & Ek & S). destruct (call_facts f pos kws b Hw Hk H) as (F1 & F2 & F3 & F4 & F5).
  eexists. split; [exact S|]. unfold named_args. cbn [fold_left s_positional s_kwonly s_kwargs].
  assert (N : NoDup (map fst ((p ++ k) ++ b_kwargs b))).
  { unfold well_formed in Hw. rewrite Ho in Hw. cbn [app] in Hw. rewrite !map_app, Ep, Ek. clear - Hw F4 F5. induction (f_pos f ++ f_kwonly f)%list as [|x l IH]; [exact F4|]. cbn. inversion Hw as [|? ? H1 H2]; subst. constructor.
    - intros G. apply in_app_or in G. destruct G as [G|G]; [exact (H1 G)|]. apply (F5 x G). left. reflexivity.
    - apply IH; [exact H2|]. intros y Hy G. apply (F5 y Hy). right. exact G. }
  assert (N2 : NoDup (map fst (p ++ k))) by (rewrite map_app in N; apply nodup_left in N; exact N).
  assert (N1 : NoDup (map fst p)) by (rewrite map_app in N2; apply nodup_left in N2; exact N2).
  rewrite (dict_update_new p []) by exact N1. cbn [app]. rewrite (dict_update_new k p) by exact N2. rewrite (dict_update_new _ (p ++ k)) by exact N. rewrite E. reflexivity.
Qed.
Print Assumptions C118_named.

(** ** File names *)
(** No separators, no dots, never empty: a file of the current directory, whatever the values are. *)
(** Characters which must not be in the name of a file *)
Definition unsafe (c : ascii) : Prop := c = " "%char \/ c = "/"%char \/ c = "."%char \/ c = ","%char.
Lemma invalid_iff : forall c, invalid c = true <-> unsafe c.
Proof.
  intros c. unfold invalid, unsafe. rewrite existsb_exists. split.
  - intros (x & Hx & E). apply Ascii.eqb_eq in E. subst x. cbn in Hx. firstorder congruence.
  - intros H. exists c. rewrite Ascii.eqb_refl. split; [|reflexivity]. cbn. firstorder congruence.
Qed.
Lemma invalid_not : forall c, invalid c = false <-> ~ unsafe c.
Proof. intros c. rewrite <- invalid_iff. destruct (invalid c); split; intros; try congruence. Qed.
(** [kept w t]: [w] is [t] without the unsafe characters, in the same order *)
Inductive kept : list ascii -> list ascii -> Prop :=
| kept_nil : kept [] []
| kept_cons : forall c w t, ~ unsafe c -> kept w t -> kept (c :: w) (c :: t)
| kept_drop : forall c w t, unsafe c -> kept w t -> kept w (c :: t).
(** The text: the first letter of each name and the text of its value, one after the other. *)
Definition text {V} (str : V -> string) (l : list (string * V)) : list ascii :=
  concat (map (fun x => match fst x with EmptyString => [] | String c _ => [c] end ++ list_ascii_of_string (str (snd x)))%list l).
Theorem C118_filename_text : forall V (str : V -> string) s,
  (text str (named_args s) = [] -> make_filename str s = list_ascii_of_string "data"%string) /\
  (text str (named_args s) <> [] -> kept (make_filename str s) (text str (named_args s))).
Proof.
  intros V str s. unfold make_filename.
  assert (E : flat_map (fun x => firstn 1 (list_ascii_of_string (fst x)) ++ list_ascii_of_string (str (snd x)))%list (named_args s) = text str (named_args s)).
  { unfold text. rewrite flat_map_concat_map. f_equal. apply map_ext. intros [[|c n] v]; reflexivity. }
  rewrite E. generalize (text str (named_args s)). intros t. split; [intros ->; reflexivity|]. intros N. destruct t as [|c0 t0]; [congruence|]. generalize (c0 :: t0). clear.
  intros t. induction t as [|c t IH]; cbn [filter]; [constructor|]. destruct (invalid c) eqn:I; cbn [negb].
  - apply kept_drop; [apply invalid_iff; exact I|exact IH].
  - apply kept_cons; [apply invalid_not; exact I|exact IH].
Qed.
Print Assumptions C118_filename_text.
Theorem C118_filename_safe : forall V (str : V -> string) s, (forall x, In x (named_args s) -> exists c r, fst x = String c r /\ ~ unsafe c) ->
  make_filename str s <> [] /\ forall c, In c (make_filename str s) -> ~ unsafe c.
Proof.
  intros V str s H. unfold make_filename. split.
  - destruct (named_args s) as [|x l]; [cbn; discriminate|]. destruct (H x (or_introl eq_refl)) as (c & r & E & I). apply invalid_not in I. cbn [flat_map]. rewrite E. cbn [list_ascii_of_string firstn app]. cbn [filter]. rewrite I. discriminate.
  - intros c Hc. apply filter_In in Hc. destruct Hc as [_ Hc]. apply negb_true_iff in Hc. apply invalid_not, Hc.
Qed.
Print Assumptions C118_filename_safe.
(** Different arguments, different files. *)
Definition C118_filename_claim : Prop := forall V (str : V -> string) (s s' : callsig V), map fst (named_args s) = map fst (named_args s') -> make_filename str s = make_filename str s' ->
  map (fun x => str (snd x)) (named_args s) = map (fun x => str (snd x)) (named_args s').
(** The results for 1.5 and for 15 go to the same file. *)
Theorem C118_filename_refuted : ~ C118_filename_claim.
Proof.
  intros H. specialize (H string (fun x => x) (CallSig [("v", "1.5")] [] [] []) (CallSig [("v", "15")] [] [] []))%string. cbn in H. specialize (H eq_refl eq_refl). discriminate H.
Qed.
Print Assumptions C118_filename_refuted.
(** Neither are texts told apart which run into each other. *)
Example C118_filename_run : make_filename (fun x => x) (CallSig [("n", "1"); ("m", "2m3")] [] [] [])%string = make_filename (fun x => x) (CallSig [("n", "1m2"); ("m", "3")] [] [] [])%string.
Proof. reflexivity. Qed.
(** Values of *args are not part of the name. *)
Theorem C118_filename_args : forall V (str : V -> string) p a a' k w, make_filename str (CallSig p a k w) = make_filename str (CallSig p a' k w).
Proof. reflexivity. Qed.
(** True for texts of the same lengths without the removed characters. *)
Definition clean (t : string) : Prop := forall c, In c (list_ascii_of_string t) -> ~ unsafe c.
Lemma ascii_inj : forall a b, list_ascii_of_string a = list_ascii_of_string b -> a = b.
Proof. intros a b H. rewrite <- (string_of_list_ascii_of_string a), <- (string_of_list_ascii_of_string b), H. reflexivity. Qed.
Theorem C118_filename_partial : forall V (str : V -> string) (s s' : callsig V), map fst (named_args s) = map fst (named_args s') ->
  (forall x, In x (named_args s ++ named_args s') -> clean (str (snd x))) ->
  map (fun x => String.length (str (snd x))) (named_args s) = map (fun x => String.length (str (snd x))) (named_args s') ->
  make_filename str s = make_filename str s' -> map (fun x => str (snd x)) (named_args s) = map (fun x => str (snd x)) (named_args s').
Proof.
  intros V str s s'. unfold make_filename. generalize (named_args s) (named_args s'). intros l l' Hn Hc Hl H.
  set (piece := fun x : string * V => (firstn 1 (list_ascii_of_string (fst x)) ++ list_ascii_of_string (str (snd x)))%list) in *.
  assert (La : forall t, length (list_ascii_of_string t) = String.length t) by (intros t; induction t; cbn; congruence).
  assert (H' : filter (fun c => negb (invalid c)) (flat_map piece l) = filter (fun c => negb (invalid c)) (flat_map piece l')).
  { assert (Ln : length (flat_map piece l) = length (flat_map piece l')).
    { clear H Hc. revert l' Hn Hl. induction l as [|x l IH]; intros [|y l'] Hn Hl; try discriminate; [reflexivity|]. cbn [map] in *. injection Hn as N1 N2. injection Hl as L1 L2. cbn [flat_map]. rewrite !app_length, (IH l' N2 L2). unfold piece. rewrite !app_length, !La, N1, L1. reflexivity. }
    destruct (flat_map piece l) eqn:E1; destruct (flat_map piece l') eqn:E2; try discriminate Ln; [reflexivity|exact H]. }
  clear H. revert l' Hn Hc Hl H'. induction l as [|x l IH]; intros [|y l'] Hn Hc Hl H; try discriminate; [reflexivity|]. cbn [map] in *. injection Hn as N1 N2. injection Hl as L1 L2. cbn [flat_map] in H. rewrite !filter_app in H. unfold piece at 1 3 in H. rewrite !filter_app, N1, <- !app_assoc in H. apply app_inv_head in H.
  assert (Fx : forall z, In z ((x :: l) ++ (y :: l')) -> filter (fun c => negb (invalid c)) (list_ascii_of_string (str (snd z))) = list_ascii_of_string (str (snd z))) by (intros z Hz; apply filter_all; intros c Hcc; rewrite (proj2 (invalid_not c) (Hc z Hz c Hcc)); reflexivity).
  rewrite (Fx x) in H by (left; reflexivity). rewrite (Fx y) in H by (apply in_or_app; right; left; reflexivity).
  assert (D : list_ascii_of_string (str (snd x)) = list_ascii_of_string (str (snd y)) /\ filter (fun c => negb (invalid c)) (flat_map piece l) = filter (fun c => negb (invalid c)) (flat_map piece l')).
  { assert (L : length (list_ascii_of_string (str (snd x))) = length (list_ascii_of_string (str (snd y)))) by (rewrite !La; exact L1). clear - H L. revert H L. generalize (list_ascii_of_string (str (snd x))) (list_ascii_of_string (str (snd y))). intros a. induction a as [|c a IHa]; intros [|d b] H L; try discriminate; [auto|]. injection L as L. injection H as -> H. destruct (IHa b H L) as [-> Q]. auto. }
  destruct D as [D1 D2]. f_equal; [apply ascii_inj; exact D1|]. apply IH; auto. intros z Hz. apply Hc. apply in_app_or in Hz. cbn. destruct Hz as [Hz|Hz]; [right; apply in_or_app; left; exact Hz|right; apply in_or_app; right; right; exact Hz].
Qed.
Print Assumptions C118_filename_partial.

(** ** Examples: the ones of the documentation of get_call_signature *)
Definition hello : func nat := Func [] ["a"; "b"]%string true ["target"%string] true (fun x => if String.eqb x "b" then Some 8 else if String.eqb x "target" then Some 1 else None).
Definition shown (pos : list nat) (kws : list (string * nat)) : outcome (list (option string * nat)) :=
  match call hello pos kws with Some b => omap format_args (get_call_signature hello (entry b)) | None => Throw end.
Example C118_hello1 : shown [7] [] = Ok [(Some "a", 7); (Some "b", 8); (Some "target", 1)]%string. Proof. reflexivity. Qed.
Example C118_hello2 : shown [7; 8] [("d"%string, 2)] = Ok [(Some "a", 7); (Some "b", 8); (Some "target", 1); (Some "d", 2)]%string. Proof. reflexivity. Qed.
Example C118_hello3 : shown [7; 8; 9] [("d"%string, 2)] = Ok [(None, 7); (None, 8); (None, 9); (Some "target", 1); (Some "d", 2)]%string. Proof. reflexivity. Qed.
Example C118_hello_bad : call hello [] [("b"%string, 1)] = None /\ call hello [1; 2] [("b"%string, 1)] = None. Proof. split; reflexivity. Qed.
(** A variable assigned before the call is recorded shows its new value, a deleted one raises KeyError. *)
Example C118_rebound : omap format_args (get_call_signature hello (Locals (fun x => Some 0) [] [])) = Ok [(Some "a", 0); (Some "b", 0); (Some "target", 0)]%string. Proof. reflexivity. Qed.
Example C118_deleted : get_call_signature hello (Locals (fun x => None) [] []) = Throw. Proof. reflexivity. Qed.
Example C118_filename_ex : make_filename (fun x => x) (CallSig [("width", "10"); ("length", "0.5")] ["z"] [] [])%string = list_ascii_of_string "w10l05". Proof. reflexivity. Qed.
Example C118_filename_none : make_filename (fun x : string => x) (CallSig [] [] [] []) = list_ascii_of_string "data". Proof. reflexivity. Qed.
