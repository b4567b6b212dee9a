(* Property theorems C20, C21, C39: the class Model as a state machine.
   Model: ModelState.v; proofs: ModelProofs.v. *)
From Verif Require Import Base Scalar Foundation Lattice SystemBuild PropsHamiltonian ModelState ModelProofs.

(** Everything the state machine calls: how to make foundations, leads, systems and matrices. *)
Record builders (R : scalar) (P Shp Sy Fn : Type) := Builders {
  b_F : Type; b_LS : Type; b_Sys : Type; b_H : Type; b_LH : Type;
  b_found : sconfig R P Shp Sy Fn -> res b_F;
  b_lead : sconfig R P Shp Sy Fn -> b_F -> Z * shape P Shp -> res b_LS;
  b_finish : sconfig R P Shp Sy Fn -> b_F -> res b_Sys;
  b_real : config R P Shp Sy Fn -> b_Sys -> hres b_H;
  b_complex : config R P Shp Sy Fn -> b_Sys -> res b_H;
  b_lead_ham : config R P Shp Sy Fn -> bool -> b_LS -> res b_LH;
  b_im : mat R -> bool
}.
Arguments Builders {R P Shp Sy Fn}. Arguments b_F {R P Shp Sy Fn}. Arguments b_LS {R P Shp Sy Fn}. Arguments b_Sys {R P Shp Sy Fn}.
Arguments b_H {R P Shp Sy Fn}. Arguments b_LH {R P Shp Sy Fn}. Arguments b_found {R P Shp Sy Fn}. Arguments b_lead {R P Shp Sy Fn}.
Arguments b_finish {R P Shp Sy Fn}. Arguments b_real {R P Shp Sy Fn}. Arguments b_complex {R P Shp Sy Fn}. Arguments b_lead_ham {R P Shp Sy Fn}.
Arguments b_im {R P Shp Sy Fn}.

Section Interface.
  Context {R : scalar} {P Shp Sy Fn : Type}.
  Variable B : builders R P Shp Sy Fn.
  Variables (padd : P -> P -> P) (peqb : P -> P -> bool) (offset_ok : P -> bool).
  Notation mstate := (state R P Shp Sy Fn (b_LS B) (b_Sys B) (b_H B) (b_LH B)).
  (** State of a new model after a list of calls and queries. *)
  Definition after (ops : list (op R P Shp Sy Fn)) (c : config R P Shp Sy Fn) : mstate :=
    run R P padd peqb Shp Sy Fn offset_ok _ _ _ _ _ (b_found B) (b_lead B) (b_finish B) (b_real B) (b_complex B) (b_lead_ham B) (b_im B) ops (fresh c).
  Definition reply (q : query) (st : mstate) : obs P Shp (b_LS B) (b_Sys B) (b_H B) (b_LH B) :=
    snd (ask R P Shp Sy Fn _ _ _ _ _ (b_found B) (b_lead B) (b_finish B) (b_real B) (b_complex B) (b_lead_ham B) (b_im B) q st).
  Definition answer (ops : list (op R P Shp Sy Fn)) (c : config R P Shp Sy Fn) (q : query) := reply q (after ops c).
  Definition call (m : mcall R P Shp Sy Fn) (st : mstate) : mstate * bool := do_call R P padd peqb Shp Sy Fn offset_ok _ _ _ _ m st.
  Definition leads_never_fail : Prop := leads_build R P Shp Sy Fn _ _ _ (b_found B) (b_lead B) (b_lead_ham B).
  Definition no_override : Prop := never_override R P Shp Sy Fn _ _ (b_real B).
  Definition all_accepted (ops : list (op R P Shp Sy Fn)) c : Prop := accepted R P padd peqb Shp Sy Fn offset_ok ops c.
  Definition removes_nothing (ops : list (op R P Shp Sy Fn)) : Prop := no_clears R P Shp Sy Fn ops.
End Interface.

(** Builders for the examples: a system is a summary of the settings it was built from (primitive
    size, offset, shape, modifiers, leads), a matrix is a system, the wave vector, the onsite
    modifiers and the scalar type.  In [plain] nothing fails; in [bad_leads] lead shape 7 cannot
    be built; in [some_complex] the real matrix of a primitive with two cells along x asks for
    complex numbers. *)
Notation toy_config := (config GI Z nat unit nat).
Record toy_sys := TSys { t_prim : idx3; t_offset : Z; t_shape : option nat; t_mods : nat; t_leads : nat }.
Record toy_ham := THam { t_sys : toy_sys; t_wave : Z; t_onsite : list nat; t_complex : bool }.
Definition summary (c : sconfig GI Z nat unit nat) : toy_sys :=
  TSys (s_prim c) (s_offset c) (option_map (fun s => sh_body s) (s_shape c)) (length (s_smods c)) (length (s_leads c)).
Definition toy_make (c : toy_config) (s : toy_sys) (b : bool) : toy_ham := THam s (c_wave c) (map (fun m => hm_fn m) (c_onsite c)) b.
Definition toy (bad_lead : nat -> bool) (ask_complex : Z -> bool) : builders GI Z nat unit nat :=
  @Builders GI Z nat unit nat toy_sys nat toy_sys toy_ham (nat * bool)
    (fun c => Ret (summary c))
    (fun _ _ sp => if bad_lead (sh_body (snd sp)) then Raise else Ret (sh_body (snd sp)))
    (fun c _ => Ret (summary c))
    (fun c s => if ask_complex (ix (c_prim c)) then HComplex else HRet (toy_make c s false))
    (fun c s => Ret (toy_make c s true))
    (fun _ b l => Ret (l, b))
    (fun _ => false).
Definition plain := toy (fun _ => false) (fun _ => false).
Definition bad_leads := toy (fun s => s =? 7) (fun _ => false).
Definition some_complex := toy (fun _ => false) (fun x => x =? 2)%Z.
Definition start : toy_config := Cfg 2 0%Z [] [] (I3 1 1 1) None None 0%Z [] [] [] [].
Notation toy_answer B := (answer B Z.add Z.eqb (fun o => Z.abs o <? 10)%Z).

(* ------------------------------------------------------------------ C20 *)
(** Full claim: what a query returns depends only on the configuration calls made before it, not
    on the queries made in between. *)
Definition C20_claim : Prop :=
  forall (R : scalar) (P Shp Sy Fn : Type) (B : builders R P Shp Sy Fn) padd peqb ok ops c q,
  answer B padd peqb ok ops c q = answer B padd peqb ok (config_calls ops) c q.

(** What holds when no modifier is removed, every call is accepted, building a lead does not
    fail and no modifier asks for complex numbers: equality. *)
Theorem C20_order_free_partial :
  forall (R : scalar) (P Shp Sy Fn : Type) (B : builders R P Shp Sy Fn) padd peqb ok ops c q,
  leads_never_fail B -> no_override B -> removes_nothing ops -> all_accepted padd peqb ok ops c ->
  answer B padd peqb ok ops c q = answer B padd peqb ok (config_calls ops) c q.
Proof.
  intros R P Shp Sy Fn B padd peqb ok. exact (order_free_exact R P padd peqb Shp Sy Fn ok _ _ _ _ _ _ _ _ _ _ _ _).
Qed.
Print Assumptions C20_order_free_partial.

(** With modifiers that ask for complex numbers: equality up to [hsim] and [lsim], whenever
    complex matrices are related to the real matrices of the same model. *)
Theorem C20_order_free_values_partial :
  forall (R : scalar) (P Shp Sy Fn : Type) (B : builders R P Shp Sy Fn) padd peqb ok (hsim : b_H B -> b_H B -> Prop) (lsim : b_LH B -> b_LH B -> Prop) ops c q,
  (forall h, hsim h h) -> (forall l, lsim l l) -> leads_never_fail B ->
  type_insensitive R P Shp Sy Fn _ _ _ _ (b_real B) (b_complex B) (b_lead_ham B) hsim lsim ->
  removes_nothing ops -> all_accepted padd peqb ok ops c ->
  obs_sim P Shp _ _ _ _ hsim lsim (answer B padd peqb ok ops c q) (answer B padd peqb ok (config_calls ops) c q).
Proof.
  intros R P Shp Sy Fn B padd peqb ok hsim lsim ops c q Hh Hl HL HT. exact (order_free R P padd peqb Shp Sy Fn ok _ _ _ _ _ _ _ _ _ _ _ _ hsim lsim Hh Hl HL (or_intror HT) ops c q).
Qed.
Print Assumptions C20_order_free_values_partial.

(** Each condition is needed.  Removing modifiers does not drop what was built from them. *)
Theorem C20_removed_modifier_refuted : exists ops,
  leads_never_fail plain /\ no_override plain /\ all_accepted Z.add Z.eqb (fun o => Z.abs o <? 10)%Z ops start /\
  toy_answer plain ops start QSystem <> toy_answer plain (config_calls ops) start QSystem.
Proof.
  exists [Call (AddStructMod 1); Ask QSystem; Call ClearStructMods]. split; [|split; [|split]].
  - split; intros; eexists; reflexivity.
  - intros c s. discriminate.
  - cbn. auto.
  - vm_compute. discriminate.
Qed.
Print Assumptions C20_removed_modifier_refuted.
Theorem C20_removed_ham_modifier_refuted : exists ops,
  leads_never_fail plain /\ no_override plain /\ all_accepted Z.add Z.eqb (fun o => Z.abs o <? 10)%Z ops start /\
  toy_answer plain ops start QHam <> toy_answer plain (config_calls ops) start QHam.
Proof.
  exists [Call (AddOnsite (HMod 1 false false)); Ask QHam; Call ClearHamMods]. split; [|split; [|split]].
  - split; intros; eexists; reflexivity.
  - intros c s. discriminate.
  - cbn. auto.
  - vm_compute. discriminate.
Qed.
Print Assumptions C20_removed_ham_modifier_refuted.

(** A call that raises can change the configuration and keep what was built before. *)
Definition tall : mat GI := gmat 2 1 (fun _ _ => (0, 0)%Z).
Theorem C20_rejected_call_refuted : exists ops,
  leads_never_fail plain /\ no_override plain /\ removes_nothing ops /\
  toy_answer plain ops start QSystem <> toy_answer plain (config_calls ops) start QSystem.
Proof.
  exists [Ask QSystem; Call (AddSiteGen (Nm 1) tall 3)]. split; [|split; [|split]].
  - split; intros; eexists; reflexivity.
  - intros c s. discriminate.
  - cbn. auto.
  - vm_compute. discriminate.
Qed.
Print Assumptions C20_rejected_call_refuted.

(** A lead that cannot be built makes the first query raise and the second one succeed. *)
Theorem C20_failed_lead_refuted : exists ops,
  no_override bad_leads /\ removes_nothing ops /\ all_accepted Z.add Z.eqb (fun o => Z.abs o <? 10)%Z ops start /\
  toy_answer bad_leads (config_calls ops) start QSystem = OSystem _ _ _ _ _ _ Raise /\
  toy_answer bad_leads ops start QSystem = OSystem _ _ _ _ _ _ (Ret (TSys (I3 1 1 1) 0 None 0 2)).
Proof.
  exists [Call (AttachLead 1 (Shape 1 0%Z)); Call (AttachLead 2 (Shape 7 0%Z)); Ask QSystem]. split; [|split; [|split; [|split]]].
  - intros c s. discriminate.
  - cbn. auto.
  - cbn. auto.
  - vm_compute. reflexivity.
  - vm_compute. reflexivity.
Qed.
Print Assumptions C20_failed_lead_refuted.

(** A matrix that once had to be complex makes all later matrices of the model complex. *)
Theorem C20_sticky_type_refuted : exists ops,
  leads_never_fail some_complex /\ removes_nothing ops /\ all_accepted Z.add Z.eqb (fun o => Z.abs o <? 10)%Z ops start /\
  toy_answer some_complex ops start QHam = OHam _ _ _ _ _ _ (Ret (THam (TSys (I3 1 1 1) 0 None 0 0) 0 [] true)) /\
  toy_answer some_complex (config_calls ops) start QHam = OHam _ _ _ _ _ _ (Ret (THam (TSys (I3 1 1 1) 0 None 0 0) 0 [] false)).
Proof.
  exists [Call (AddPrimitive (I3 2 1 1)); Ask QHam; Call (AddPrimitive (I3 1 1 1))]. split; [|split; [|split; [|split]]].
  - split; intros; eexists; reflexivity.
  - cbn. auto.
  - cbn. auto.
  - vm_compute. reflexivity.
  - vm_compute. reflexivity.
Qed.
Print Assumptions C20_sticky_type_refuted.

Theorem C20_claim_refuted : ~ C20_claim.
Proof.
  intros H. destruct C20_removed_modifier_refuted as (ops & _ & _ & _ & N). apply N. apply H.
Qed.
Print Assumptions C20_claim_refuted.

(** Queries of every kind between the calls: the settings of all of them reach the last query. *)
Definition mixed : list (op GI Z nat unit nat) :=
  [Ask QHam; Call (AddPrimitive (I3 3 3 1)); Ask QSystem; Call (AddStructMod 4); Ask QLeads; Call (AttachLead (-2) (Shape 5 0%Z)); Ask QLeads;
   Call (SetWave 8%Z); Ask QHam; Call (AddOnsite (HMod 6 false false))].
Example C20_example : removes_nothing mixed /\ all_accepted Z.add Z.eqb (fun o => Z.abs o <? 10)%Z mixed start /\ leads_never_fail plain /\ no_override plain /\
  toy_answer plain mixed start QHam = OHam _ _ _ _ _ _ (Ret (THam (TSys (I3 3 3 1) 0 None 1 1) 8 [6] false)).
Proof.
  split; [cbn; tauto|]. split; [cbn; tauto|]. split; [|split].
  - split; intros; eexists; reflexivity.
  - intros c s. discriminate.
  - vm_compute. reflexivity.
Qed.

(* ------------------------------------------------------------------ C21 *)
(** Full claim: a call that raises has no effect on later answers. *)
Definition C21_claim : Prop :=
  forall (R : scalar) (P Shp Sy Fn : Type) (B : builders R P Shp Sy Fn) padd peqb ok before m later c q,
  snd (call B padd peqb ok m (after B padd peqb ok before c)) = false ->
  answer B padd peqb ok (before ++ Call m :: later) c q = answer B padd peqb ok (before ++ later) c q.

(** False for four of the five calls that can raise. *)
Theorem C21_generator_refuted : snd (call plain Z.add Z.eqb (fun o => Z.abs o <? 10)%Z (AddSiteGen (Nm 1) tall 3) (fresh start)) = false /\
  toy_answer plain [Call (AddSiteGen (Nm 1) tall 3)] start QSystem <> toy_answer plain [] start QSystem /\
  snd (call plain Z.add Z.eqb (fun o => Z.abs o <? 10)%Z (AddHopGen Blank tall 3) (fresh start)) = false /\
  toy_answer plain [Call (AddHopGen Blank tall 3)] start QSystem <> toy_answer plain [] start QSystem.
Proof. vm_compute. repeat split; try discriminate. Qed.
Print Assumptions C21_generator_refuted.
Theorem C21_primitive_refuted : snd (call plain Z.add Z.eqb (fun o => Z.abs o <? 10)%Z (AddPrimitive (I3 2 2 2)) (fresh start)) = false /\
  toy_answer plain [Call (AddPrimitive (I3 2 2 2))] start QSystem <> toy_answer plain [] start QSystem.
Proof. vm_compute. repeat split; try discriminate. Qed.
Print Assumptions C21_primitive_refuted.
Theorem C21_shape_refuted : snd (call plain Z.add Z.eqb (fun o => Z.abs o <? 10)%Z (AddShape (Shape 4 20%Z)) (fresh start)) = false /\
  toy_answer plain [Call (AddShape (Shape 4 20%Z))] start QSystem <> toy_answer plain [] start QSystem.
Proof. vm_compute. repeat split; try discriminate. Qed.
Print Assumptions C21_shape_refuted.
Theorem C21_claim_refuted : ~ C21_claim.
Proof.
  intros H. destruct C21_primitive_refuted as [A N]. apply N. apply (H GI Z nat unit nat plain Z.add Z.eqb (fun o => Z.abs o <? 10)%Z [] (AddPrimitive (I3 2 2 2)) [] start QSystem A).
Qed.
Print Assumptions C21_claim_refuted.

(** What holds.  Attaching a lead is all or nothing. *)
Theorem C21_attach_lead : forall (R : scalar) (P Shp Sy Fn : Type) (B : builders R P Shp Sy Fn) padd peqb ok d s st,
  snd (call B padd peqb ok (AttachLead d s) st) = false -> fst (call B padd peqb ok (AttachLead d s) st) = st.
Proof. intros R P Shp Sy Fn B padd peqb ok. exact (rejected_lead R P padd peqb Shp Sy Fn ok _ _ _ _). Qed.
Print Assumptions C21_attach_lead.

(** No rejected call touches a cache, a registry, the offset, the symmetry, the wave vector, the
    leads or the Hamiltonian modifiers. *)
Theorem C21_rejected_keeps_partial : forall (R : scalar) (P Shp Sy Fn : Type) (B : builders R P Shp Sy Fn) padd peqb ok m st,
  snd (call B padd peqb ok m st) = false ->
  let st' := fst (call B padd peqb ok m st) in
  st_sys st' = st_sys st /\ st_ham st' = st_ham st /\ st_ls st' = st_ls st /\ st_lh st' = st_lh st /\ st_over st' = st_over st /\
  c_sites (st_cfg st') = c_sites (st_cfg st) /\ c_hops (st_cfg st') = c_hops (st_cfg st) /\ c_offset (st_cfg st') = c_offset (st_cfg st) /\
  c_sym (st_cfg st') = c_sym (st_cfg st) /\ c_wave (st_cfg st') = c_wave (st_cfg st) /\ c_leads (st_cfg st') = c_leads (st_cfg st) /\
  c_onsite (st_cfg st') = c_onsite (st_cfg st) /\ c_hopping (st_cfg st') = c_hopping (st_cfg st).
Proof. intros R P Shp Sy Fn B padd peqb ok. exact (rejected_keeps R P padd peqb Shp Sy Fn ok _ _ _ _). Qed.
Print Assumptions C21_rejected_keeps_partial.

(** A model that has been fully built answers as before directly after a rejected call. *)
Theorem C21_built_model : forall (R : scalar) (P Shp Sy Fn : Type) (B : builders R P Shp Sy Fn) padd peqb ok m q st s h,
  snd (call B padd peqb ok m st) = false ->
  st_sys st = Some s -> st_ham st = Some h -> (st_lh st <> [] \/ st_ls st = []) ->
  reply B q (fst (call B padd peqb ok m st)) = reply B q st.
Proof.
  intros R P Shp Sy Fn B padd peqb ok. exact (rejected_answers R P padd peqb Shp Sy Fn ok _ _ _ _ _ _ _ _ _ _ _ _).
Qed.
Print Assumptions C21_built_model.

Definition filled {A} (o : option A) : bool := match o with Some _ => true | None => false end.
Example C21_example : let st := after plain Z.add Z.eqb (fun o => Z.abs o <? 10)%Z [Call (AddPrimitive (I3 3 3 1)); Ask QLeads] start in
  snd (call plain Z.add Z.eqb (fun o => Z.abs o <? 10)%Z (AttachLead 3 (Shape 1 0%Z)) st) = false /\
  snd (call plain Z.add Z.eqb (fun o => Z.abs o <? 10)%Z (AddPrimitive (I3 2 2 2)) st) = false /\
  filled (st_sys st) = true /\ filled (st_ham st) = true /\ length (st_ls st) = 0.
Proof. split; [vm_compute; reflexivity|]. split; [vm_compute; reflexivity|]. split; [vm_compute; reflexivity|]. split; vm_compute; reflexivity. Qed.

(* ------------------------------------------------------------------ C39 *)
(** Full claim: setting the primitive size, the shape, the symmetry or the wave vector again
    replaces the earlier setting ([setter] in ModelProofs.v lists the four pairs). *)
Definition C39_claim : Prop :=
  forall (R : scalar) (P Shp Sy Fn : Type) (B : builders R P Shp Sy Fn) padd peqb ok m m' c q,
  setter m m' -> all_accepted padd peqb ok [Call m; Call m'] c -> all_accepted padd peqb ok [Call m'] c ->
  answer B padd peqb ok [Call m; Call m'] c q = answer B padd peqb ok [Call m'] c q.
(** False: every shape moves the lattice offset, also after it has been replaced. *)
Theorem C39_shape_refuted : ~ C39_claim.
Proof.
  intros H. pose proof (H GI Z nat unit nat plain Z.add Z.eqb (fun o => Z.abs o <? 10)%Z (AddShape (Shape 1 2%Z)) (AddShape (Shape 1 2%Z)) start QSystem I
    ltac:(cbn; auto) ltac:(cbn; auto)) as X. vm_compute in X. discriminate.
Qed.
Print Assumptions C39_shape_refuted.

Theorem C39_last_setting_partial :
  forall (R : scalar) (P Shp Sy Fn : Type) (B : builders R P Shp Sy Fn) padd peqb ok m m' c q,
  (forall x y, peqb x y = true <-> x = y) -> setter m m' ->
  match m with AddShape s => padd (c_offset c) (sh_offset s) = c_offset c | _ => True end ->
  answer B padd peqb ok [Call m; Call m'] c q = answer B padd peqb ok [Call m'] c q.
Proof.
  intros R P Shp Sy Fn B padd peqb ok m m' c q Hp Hs Ho. unfold answer. f_equal. exact (last_setting R P padd peqb Shp Sy Fn ok _ _ _ _ _ _ _ _ _ _ _ _ m m' c Hp Hs Ho).
Qed.
Print Assumptions C39_last_setting_partial.
Example C39_example : toy_answer plain [Call (AddPrimitive (I3 4 2 1)); Call (AddPrimitive (I3 2 4 1))] start QSystem
  = OSystem _ _ _ _ _ _ (Ret (TSys (I3 2 4 1) 0 None 0 0)).
Proof. vm_compute. reflexivity. Qed.
