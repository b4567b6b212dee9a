(* The real and the complex builder agree; scaling all energies scales the matrix. *)
From Verif Require Import Base Rle Blocks Scalar Foundation Lattice Hamiltonian ScalarType.
From Coq Require Import Lia.

(** ** A computation which agrees with another one unless it throws *)
Definition sim {A} (P : A -> Prop) (a b : outcome A) : Prop := match a with Throw => True | UB => b = UB | Ok x => b = Ok x /\ P x end.
Lemma sim_bind : forall {A B} (P : A -> Prop) (Q : B -> Prop) a a' (f f' : A -> outcome B),
  sim P a a' -> (forall x, P x -> sim Q (f x) (f' x)) -> sim Q (obind a f) (obind a' f').
Proof. intros A B P Q [x| |] a' f f' H F; cbn in *; [destruct H as (-> & H); apply F; exact H|exact I|subst; reflexivity]. Qed.
Lemma sim_same : forall {A} (P : A -> Prop) a, (forall x, a = Ok x -> P x) -> sim P a a.
Proof. intros A P [x| |] H; cbn; auto. Qed.
Lemma sim_fold : forall {A B} (P : A -> Prop) (f f' : A -> B -> outcome A) l a, P a -> (forall x b, In b l -> P x -> sim P (f x b) (f' x b)) -> sim P (ofold f l a) (ofold f' l a).
Proof.
  intros A B P f f' l. induction l as [|b l IH]; intros a Ha H; cbn [ofold]; [cbn; auto|].
  apply (sim_bind P); [apply H; [left; reflexivity|exact Ha]|]. intros x Hx. apply IH; [exact Hx|]. intros; apply H; [right|]; assumption.
Qed.
Lemma sim_fold2 : forall {A B} (P : A -> Prop) (f f' : A -> B -> outcome A) (w : B -> B) l a,
  P a -> (forall x b, P x -> sim P (f x (w b)) (f' x b)) -> sim P (ofold f (map w l) a) (ofold f' l a).
Proof.
  intros A B P f f' w l. induction l as [|b l IH]; intros a Ha H; cbn [ofold map]; [cbn; auto|]. apply (sim_bind P); [apply H; exact Ha|]. intros x Hx. apply IH; assumption.
Qed.
Lemma in_reg : forall {A} (reg : list A) id e, reg_get reg id = Ok e -> In e reg.
Proof. intros A reg id e H. unfold reg_get in H. destruct (nth_error reg id) eqn:E; [|discriminate]. injection H as <-. exact (nth_error_In _ _ E). Qed.

Section Real.
  Variable R : scalar.
  Variable V : Type.
  Variable re : R -> R.
  Variables small small_im : R -> bool.
  (** A number without imaginary part is its own conjugate; zero has none. *)
  Hypothesis re_conj : forall x, re x = x -> kconj x = x.
  Hypothesis re_0 : re k0 = k0.

  Definition real_list (l : list R) : Prop := Forall (fun x => re x = x) l.
  Definition real_terms (l : list (Z * Z * R)) : Prop := Forall (fun t => re (snd t) = snd t) l.
  Definition real_reg (reg : list (name * mat R)) : Prop := forall e, In e reg -> real_list (mat_vals (snd e)).
  Lemma is_real_iff : forall x, is_real re x = true <-> re x = x.
  Proof. intros x. unfold is_real. apply keqb_eq. Qed.
  Lemma real_cast : forall l, real_list l -> map re l = l.
  Proof. intros l H. induction H as [|x l Hx H IH]; [reflexivity|]. cbn. rewrite Hx, IH. reflexivity. Qed.
  Lemma real_repeat : forall x n, re x = x -> real_list (repeat x n).
  Proof. intros x n H. induction n; constructor; assumption. Qed.
  Lemma real_upd : forall buf i v, real_list buf -> re v = v -> real_list (upd buf i v).
  Proof. intros buf i v Hb Hv. revert i. induction Hb as [|x buf Hx Hb IH]; intros [|i]; cbn [upd]; constructor; auto. apply IH. Qed.
  Lemma real_segment : forall buf s n v, real_list buf -> re v = v -> real_list (set_segment buf s n v).
  Proof. intros buf s n. revert buf s. induction n as [|n IH]; intros buf s v Hb Hv; cbn [set_segment]; [exact Hb|]. apply IH; [apply real_upd|]; assumption. Qed.
  Lemma real_fill : forall vals buf s n b, real_list buf -> real_list vals -> fill_segments buf s n vals = Ok b -> real_list b.
  Proof.
    induction vals as [|v vals IH]; intros buf s n b Hb Hv E; cbn [fill_segments] in E; [injection E as <-; exact Hb|].
    inversion Hv; subst. destruct (s + n <=? length buf); [|discriminate]. refine (IH _ _ _ _ _ _ E); [apply real_segment; assumption|assumption].
  Qed.
  Lemma real_emit : forall idx data r, real_list data -> emit idx data = Ok r -> real_terms r.
  Proof.
    induction idx as [|ij idx IH]; intros data r Hd E; cbn [emit] in E; [injection E as <-; constructor|]. destruct data as [|v d]; [discriminate|].
    inversion Hd; subst. destruct (emit idx d) as [r'| |] eqn:E'; try discriminate. cbn [omap obind] in E. injection E as <-. destruct (keqb v k0); [eapply IH; eassumption|].
    constructor; [assumption|]. eapply IH; eassumption.
  Qed.
  Lemma sim_in_place : forall f buf, sim real_list (in_place (fun b => real_result re (f b)) buf) (in_place f buf).
  Proof.
    intros f buf. unfold in_place, real_result. destruct (f buf) as [b| |]; cbn; auto. destruct (forallb (is_real re) b) eqn:E; cbn; [|exact I].
    destruct (length b =? length buf); cbn; [|reflexivity]. split; [reflexivity|]. unfold real_list. rewrite Forall_forall. rewrite forallb_forall in E. intros x Hx. apply is_real_iff, E, Hx.
  Qed.

  Section System.
    Variable sys : hsys R V.
    Hypothesis Hsite : real_reg (hs_site sys).
    Hypothesis Hhop : real_reg (hs_hop sys).
    Lemma sim_onsite_buffer : forall mods intrinsic s, sim real_list (onsite_buffer (real_type re) sys (map (real_onsite re) mods) intrinsic s) (onsite_buffer complex_type sys mods intrinsic s).
    Proof.
      intros mods intrinsic s. unfold onsite_buffer. apply (sim_bind real_list).
      - destruct intrinsic.
        + destruct (reg_get (hs_site sys) (e_id (it_e s))) as [e| |] eqn:E; cbn [obind]; [|exact I|reflexivity]. apply in_reg in E. specialize (Hsite e E).
          cbn [nt_cast real_type complex_type]. rewrite (real_cast _ Hsite), map_id. apply sim_same. intros b Eb. eapply real_fill; [apply real_repeat, re_0|exact Hsite|exact Eb].
        + apply sim_same. intros b Eb. injection Eb as <-. apply real_repeat, re_0.
      - intros b0 Hb. destruct mods as [|m mods]; cbn [map]; [cbn; auto|].
        apply (sim_bind (fun _ => True)); [apply sim_same; auto|]. intros ps _. apply (sim_bind (fun _ => True)); [apply sim_same; auto|]. intros e _.
        change (real_onsite re m :: map (real_onsite re) mods) with (map (real_onsite re) (m :: mods)). apply sim_fold2; [exact Hb|]. intros x m' Hx. apply sim_in_place.
    Qed.
    Lemma sim_onsite : forall mods intrinsic, sim real_terms (onsite_terms intrinsic (real_type re) sys (map (real_onsite re) mods)) (onsite_terms intrinsic complex_type sys mods).
    Proof.
      intros mods intrinsic. unfold onsite_terms. rewrite map_length. destruct (negb intrinsic && (length mods =? 0)); [cbn; split; [reflexivity|constructor]|].
      apply sim_fold; [constructor|]. intros acc s _ Ha. apply (sim_bind real_list); [apply sim_onsite_buffer|]. intros b Hb.
      destruct (emit (onsite_indices s) b) as [r| |] eqn:E; cbn; auto. split; [reflexivity|]. apply Forall_app. split; [exact Ha|]. eapply real_emit; eassumption.
    Qed.
    Lemma sim_hopping_slice : forall (pos : list V) (shift : V -> V) mods fam rs cs coos, In fam (hs_hop sys) ->
      sim real_terms (hopping_slice (real_type re) pos shift (map (real_hopping re) mods) fam rs cs coos) (hopping_slice complex_type pos shift mods fam rs cs coos).
    Proof.
      intros pos shift mods fam rs cs coos Hf. unfold hopping_slice. apply (sim_bind (fun _ => True)); [apply sim_same; auto|]. intros p1 _.
      apply (sim_bind (fun _ => True)); [apply sim_same; auto|]. intros p2 _. specialize (Hhop fam Hf). cbn [nt_cast real_type complex_type].
      assert (E : flat_map (fun v => repeat (re v) (length coos)) (mat_vals (snd fam)) = flat_map (fun v => repeat v (length coos)) (mat_vals (snd fam))).
      { revert Hhop. generalize (mat_vals (snd fam)). intros l H. induction H as [|x l Hx H IH]; [reflexivity|]. cbn. rewrite Hx, IH. reflexivity. }
      rewrite E. apply (sim_bind real_list).
      - apply sim_fold2.
        + clear E. induction Hhop as [|x l Hx H IH]; [constructor|]. cbn. apply Forall_app. split; [apply real_repeat; exact Hx|exact (IH H)].
        + intros x m Hx. apply sim_in_place.
      - intros b Hb. apply sim_same. intros r Er. eapply real_emit; eassumption.
    Qed.
    Lemma sim_hopping_block : forall cap shift mods f coos,
      sim real_terms (hopping_block cap (real_type re) sys shift (map (real_hopping re) mods) f coos) (hopping_block cap complex_type sys shift mods f coos).
    Proof.
      intros cap shift mods f coos. unfold hopping_block. destruct coos as [|c coos]; [cbn; split; [reflexivity|constructor]|].
      destruct (reg_get (hs_hop sys) f) as [fam| |] eqn:E; cbn [obind]; [|exact I|reflexivity]. apply in_reg in E.
      apply (sim_bind (fun _ => True)); [apply sim_same; auto|]. intros rs _. apply (sim_bind (fun _ => True)); [apply sim_same; auto|]. intros cs _.
      destruct (mat_size (snd fam) =? 0); [reflexivity|]. destruct (slices _ _ _) as [sl|]; [|reflexivity].
      apply sim_fold; [constructor|]. intros acc co _ Ha. apply (sim_bind real_terms); [apply sim_hopping_slice; exact E|]. intros r Hr. cbn. split; [reflexivity|]. apply Forall_app. auto.
    Qed.
    Lemma sim_hoppings : forall cap shift mods h,
      sim real_terms (apply_to_hoppings cap (real_type re) sys shift (map (real_hopping re) mods) h) (apply_to_hoppings cap complex_type sys shift mods h).
    Proof.
      intros cap shift mods h. unfold apply_to_hoppings. rewrite map_length. apply sim_fold; [constructor|]. intros acc fb _ Ha. apply (sim_bind real_terms).
      - destruct ((length mods =? 0) && negb (has_multiple_orbitals (hs_hop sys))) eqn:F; [|apply sim_hopping_block].
        apply andb_true_iff in F. destruct F as (_ & F). apply negb_true_iff in F. unfold hopping_block_fast.
        destruct (reg_get (hs_hop sys) (fst fb)) as [fam| |] eqn:E; cbn [obind]; [|exact I|reflexivity]. apply in_reg in E.
        assert (Hv : re (m_at (snd fam) 0 0) = m_at (snd fam) 0 0).
        { unfold has_multiple_orbitals in F. assert (S : mat_size (snd fam) = 1).
          { destruct (mat_size (snd fam) =? 1) eqn:Q; [apply Nat.eqb_eq; exact Q|]. exfalso. rewrite <- not_true_iff_false in F. apply F, existsb_exists. exists fam. rewrite Q. auto. }
          unfold mat_size in S. apply Nat.eq_mul_1 in S. destruct S as (S1 & S2). specialize (Hhop fam E). unfold mat_vals in Hhop. rewrite S1, S2 in Hhop. cbn in Hhop. inversion Hhop. assumption. }
        cbn [sim nt_cast real_type complex_type]. rewrite Hv. split; [reflexivity|]. unfold real_terms. rewrite Forall_map. cbn [snd]. rewrite Forall_forall. intros; exact Hv.
      - intros r Hr. cbn. split; [reflexivity|]. apply Forall_app. auto.
    Qed.
    Lemma both_real : forall hs, real_terms hs -> flat_map (both (fun x => x)) hs = flat_map (both (kconj (s := R))) hs.
    Proof. intros hs H. induction H as [|[[i j] v] hs Hv H IH]; [reflexivity|]. cbn [flat_map both]. rewrite IH, (re_conj v Hv). reflexivity. Qed.
    Lemma sim_build : forall cap om hm unshift phase simple, hs_bounds sys = [] ->
      sim (fun _ => True) (build small cap (real_type re) sys (map (real_onsite re) om) (map (real_hopping re) hm) unshift phase simple) (build small cap complex_type sys om hm unshift phase simple).
    Proof.
      intros cap om hm unshift phase simple Hb. unfold build. apply (sim_bind (fun _ => True)).
      - apply (sim_bind real_terms); [apply sim_onsite|]. intros os _. apply (sim_bind real_terms); [apply sim_hoppings|]. intros hs Hs. cbn [nt_conj real_type complex_type].
        rewrite (both_real hs Hs). apply sim_same. auto.
      - intros m _. unfold build_periodic. rewrite Hb. cbn. auto.
    Qed.
  End System.

  (** The tests are exact for the energies of the model. *)
  Definition tests_exact (reg : list (name * mat R)) : Prop := forall e v, In e reg -> In v (mat_vals (snd e)) ->
    (small v = true <-> v = k0) /\ (small_im v = true <-> re v = v).
  Lemma nonzero_exact : forall reg, tests_exact reg -> nonzero_energy small reg = has_nonzero_energy reg.
  Proof.
    intros reg H. unfold nonzero_energy, has_nonzero_energy. apply eq_true_iff_eq. rewrite !existsb_exists. split; intros (e & He & N); exists e; split; auto;
      rewrite negb_true_iff in *; rewrite <- not_true_iff_false in *; intros F; apply N; rewrite forallb_forall in *; intros v Hv; specialize (F v Hv);
      destruct (H e v He Hv) as (Q & _); [apply Q, keqb_eq|apply keqb_eq, Q]; exact F.
  Qed.
  Lemma not_complex_real : forall reg, tests_exact reg -> any_complex_terms small_im reg = false -> real_reg reg.
  Proof.
    intros reg H F e He. unfold real_list. rewrite Forall_forall. intros v Hv. destruct (H e v He Hv) as (_ & Q). apply Q.
    destruct (small_im v) eqn:E; [reflexivity|]. exfalso. rewrite <- not_true_iff_false in F. apply F. unfold any_complex_terms. apply existsb_exists. exists e. split; [exact He|].
    rewrite negb_true_iff, <- not_true_iff_false, forallb_forall. intros A. rewrite (A v Hv) in E. discriminate.
  Qed.
  Lemma build_exact : forall cap nt (sys : hsys R V) om hm unshift phase simple, tests_exact (hs_site sys) ->
    build small cap nt sys om hm unshift phase simple = ham_make cap nt sys om hm unshift phase simple.
  Proof. intros. unfold build, ham_make, build_main, apply_to_onsite, onsite_terms. rewrite nonzero_exact by assumption. reflexivity. Qed.
  Theorem make_exact : forall cap (sys : hsys R V) om hm symmetry unshift phase simple, tests_exact (hs_site sys) -> tests_exact (hs_hop sys) -> (symmetry = false -> hs_bounds sys = []) ->
    make_hamiltonian re small small_im cap sys om hm symmetry unshift phase simple = ham_make cap complex_type sys (map snd om) (map snd hm) unshift phase simple.
  Proof.
    intros cap sys om hm symmetry unshift phase simple Ts Th Hb. rewrite <- build_exact by exact Ts. unfold make_hamiltonian.
    destruct (is_complex small_im sys om hm symmetry) eqn:C; [reflexivity|]. unfold is_complex in C. apply orb_false_iff in C. destruct C as (C & C4). apply orb_false_iff in C. destruct C as (C & _).
    apply orb_false_iff in C. destruct C as (C1 & C2).
    pose proof (sim_build sys (not_complex_real _ Ts C1) (not_complex_real _ Th C2) cap (map snd om) (map snd hm) unshift phase simple (Hb C4)) as S.
    destruct (build small cap (real_type re) sys _ _ unshift phase simple) as [x| |]; cbn in S; [destruct S as (-> & _)| |rewrite S]; reflexivity.
  Qed.
End Real.

(** ** Scaling *)
Lemma omap_bind : forall {A B A' B'} (h : A -> A') (g : B -> B') (a : outcome A) a' (f : A -> outcome B) f',
  a' = omap h a -> (forall x, a = Ok x -> f' (h x) = omap g (f x)) -> obind a' f' = omap g (obind a f).
Proof. intros A B A' B' h g [x| |] a' f f' -> F; cbn; [apply F; reflexivity| |]; reflexivity. Qed.
Lemma ofold_hom : forall {A A' B} (h : A -> A') (f : A -> B -> outcome A) f' l a, (forall x b, In b l -> f' (h x) b = omap h (f x b)) -> ofold f' l (h a) = omap h (ofold f l a).
Proof.
  intros A A' B h f f' l. induction l as [|b l IH]; intros a H; [reflexivity|]. cbn [ofold]. apply (omap_bind h h); [apply H; left; reflexivity|]. intros x _. apply IH. intros; apply H; right; assumption.
Qed.
Lemma ofold_hom2 : forall {A A' B B'} (h : A -> A') (f : A -> B -> outcome A) (f' : A' -> B' -> outcome A') (T : B -> B' -> Prop) l l' a,
  Forall2 T l l' -> (forall x b b', T b b' -> f' (h x) b' = omap h (f x b)) -> ofold f' l' (h a) = omap h (ofold f l a).
Proof.
  intros A A' B B' h f f' T l l' a F H. revert a. induction F as [|b b' l l' Hb F IH]; intros a; [reflexivity|]. cbn [ofold]. apply (omap_bind h h); [apply H; exact Hb|]. intros x _. apply IH.
Qed.

Section Scale.
  Variable R : scalar.
  Variable V : Type.
  Variable c d : R.
  Hypothesis inverse : kmul d c = k1.
  Hypothesis c_real : kconj c = c.
  Add Ring Rring : (k_ring R).
  Local Notation sc := (kmul c).
  Definition scale_term (t : Z * Z * R) : Z * Z * R := (fst t, kmul c (snd t)).
  Definition scale_entry (e : coo * R) : coo * R := (fst e, kmul c (snd e)).
  Definition scale_mat (m : mat R) : mat R := Mat (m_rows m) (m_cols m) (fun i j => kmul c (m_at m i j)).
  Definition scale_reg (reg : list (name * mat R)) : list (name * mat R) := map (fun e => (fst e, scale_mat (snd e))) reg.
  Definition scale_sys (sys : hsys R V) : hsys R V := HSys (hs_subs sys) (hs_pos sys) (scale_reg (hs_site sys)) (scale_reg (hs_hop sys)) (hs_hops sys) (hs_bounds sys).
  (** The same modifier in the other unit. *)
  Definition onsite_scales (m m' : onsite_mod R V) : Prop := forall n ps s b, m' n ps s (map sc b) = omap (map sc) (m n ps s b).
  Definition hopping_scales (m m' : hopping_mod R V) : Prop := forall r q p1 p2 f b, m' r q p1 p2 f (map sc b) = omap (map sc) (m r q p1 p2 f b).

  Lemma keqb_scale : forall v, keqb (kmul c v) k0 = keqb v k0.
  Proof.
    intros v. apply eq_true_iff_eq. rewrite !keqb_eq. split; intros E.
    - transitivity (kmul (kmul d c) v); [rewrite inverse; ring|]. transitivity (kmul d (kmul c v)); [ring|]. rewrite E. ring.
    - rewrite E. ring.
  Qed.
  Lemma vals_scale : forall m, mat_vals (scale_mat m) = map sc (mat_vals m).
  Proof. intros m. unfold mat_vals. cbn. induction (seq 0 (m_rows m)) as [|i l IH]; [reflexivity|]. cbn. rewrite map_app, map_map, IH. reflexivity. Qed.
  Lemma nonzero_scale : forall reg, has_nonzero_energy (scale_reg reg) = has_nonzero_energy reg.
  Proof.
    intros reg. unfold has_nonzero_energy, scale_reg. induction reg as [|e reg IH]; [reflexivity|]. cbn [map existsb]. rewrite IH. f_equal. f_equal. cbn [snd]. rewrite vals_scale.
    induction (mat_vals (snd e)) as [|v l IHl]; [reflexivity|]. cbn [map forallb]. rewrite keqb_scale, IHl. reflexivity.
  Qed.
  Lemma multiple_scale : forall reg, has_multiple_orbitals (scale_reg reg) = has_multiple_orbitals reg.
  Proof. intros reg. unfold has_multiple_orbitals, scale_reg. induction reg as [|e reg IH]; [reflexivity|]. cbn [map existsb]. rewrite IH. reflexivity. Qed.
  Lemma get_scale : forall reg id, reg_get (scale_reg reg) id = omap (fun e => (fst e, scale_mat (snd e))) (reg_get reg id).
  Proof. intros reg id. unfold reg_get, scale_reg. rewrite nth_error_map. destruct (nth_error reg id); reflexivity. Qed.
  Lemma repeat_scale : forall v n, repeat (kmul c v) n = map sc (repeat v n).
  Proof. intros v n. induction n; cbn; congruence. Qed.
  Lemma zeros_scale : forall n, repeat (@k0 R) n = map sc (repeat k0 n).
  Proof. intros n. rewrite <- repeat_scale. f_equal. ring. Qed.
  Lemma fill_scale : forall vals buf s n, fill_segments (map sc buf) s n (map sc vals) = omap (map sc) (fill_segments buf s n vals).
  Proof.
    induction vals as [|v vals IH]; intros buf s n; [reflexivity|]. cbn [map fill_segments]. rewrite map_length. destruct (s + n <=? length buf); [|reflexivity].
    rewrite <- IH. f_equal. clear. revert buf s. induction n as [|n IH]; intros buf s; cbn [set_segment]; [reflexivity|]. rewrite <- IH. f_equal.
    revert s. induction buf as [|x buf IHb]; intros [|s]; cbn [map upd]; [reflexivity..|]. rewrite IHb. reflexivity.
  Qed.
  Lemma emit_scale : forall idx data, emit idx (map sc data) = omap (map scale_term) (emit idx data).
  Proof.
    induction idx as [|ij idx IH]; intros data; [reflexivity|]. destruct data as [|v data]; [reflexivity|]. cbn [emit map]. rewrite IH, keqb_scale.
    destruct (emit idx data); cbn; [destruct (keqb v k0); reflexivity| |]; reflexivity.
  Qed.
  Lemma place_scale : forall f f' buf, (forall b, f' (map sc b) = omap (map sc) (f b)) -> in_place f' (map sc buf) = omap (map sc) (in_place f buf).
  Proof. intros f f' buf H. unfold in_place. rewrite H. destruct (f buf) as [b| |]; cbn; try reflexivity. rewrite !map_length. destruct (length b =? length buf); reflexivity. Qed.
  Lemma buffer_scale : forall sys mods mods' intrinsic s, Forall2 onsite_scales mods mods' ->
    onsite_buffer complex_type (scale_sys sys) mods' intrinsic s = omap (map sc) (onsite_buffer complex_type sys mods intrinsic s).
  Proof.
    intros sys mods mods' intrinsic s F. unfold onsite_buffer. apply (omap_bind (map sc) (map sc)).
    - destruct intrinsic; [|cbn; rewrite <- zeros_scale; reflexivity]. cbn [hs_site scale_sys]. rewrite get_scale. destruct (reg_get (hs_site sys) (e_id (it_e s))) as [e| |]; cbn [omap obind]; try reflexivity.
      cbn [nt_cast complex_type snd]. rewrite vals_scale, !map_id. rewrite zeros_scale at 1. apply fill_scale.
    - intros b0 _. destruct F as [|m m' mods mods' Hm F]; [reflexivity|]. cbn [hs_pos hs_site scale_sys].
      destruct (segment (hs_pos sys) (it_sys s) (e_num (it_e s))) as [ps| |]; cbn [obind omap]; try reflexivity. rewrite get_scale. destruct (reg_get (hs_site sys) (e_id (it_e s))) as [e| |]; cbn [omap obind]; try reflexivity.
      apply (ofold_hom2 (map sc) _ _ onsite_scales _ _ b0 (Forall2_cons m m' Hm F)). intros x b b' Hb. apply place_scale. intros y. apply Hb.
  Qed.
  Lemma app_scale : forall acc (r : outcome (list (Z * Z * R))), obind (omap (map scale_term) r) (fun r => Ok (map scale_term acc ++ r)) = omap (map scale_term) (obind r (fun r => Ok (acc ++ r))).
  Proof. intros acc [r| |]; cbn; try reflexivity. rewrite map_app. reflexivity. Qed.
  Lemma onsite_scale : forall sys mods mods', Forall2 onsite_scales mods mods' ->
    apply_to_onsite complex_type (scale_sys sys) mods' = omap (map scale_term) (apply_to_onsite complex_type sys mods).
  Proof.
    intros sys mods mods' F. unfold apply_to_onsite. cbn [hs_site scale_sys hs_subs]. rewrite nonzero_scale.
    assert (L : length mods' = length mods) by (clear -F; induction F; cbn; congruence). rewrite L.
    destruct (negb (has_nonzero_energy (hs_site sys)) && (length mods =? 0)); [reflexivity|].
    apply (ofold_hom (map scale_term) _ _ (iter (hs_subs sys)) []). intros acc s _.
    apply (omap_bind (map sc) (map scale_term)); [apply buffer_scale; exact F|]. intros b _. rewrite emit_scale. apply app_scale.
  Qed.
  Lemma slice_scale : forall (pos : list V) (shift : V -> V) mods mods' fam rs cs coos, Forall2 hopping_scales mods mods' ->
    hopping_slice complex_type pos shift mods' (fst fam, scale_mat (snd fam)) rs cs coos = omap (map scale_term) (hopping_slice complex_type pos shift mods fam rs cs coos).
  Proof.
    intros pos shift mods mods' fam rs cs coos F. unfold hopping_slice. cbn [fst snd m_rows m_cols scale_mat].
    destruct (osequence (fun c => aget pos (fst c)) coos) as [p1| |]; cbn [obind omap]; try reflexivity. destruct (osequence (fun c => aget pos (snd c)) coos) as [p2| |]; cbn [obind omap]; try reflexivity.
    cbn [nt_cast complex_type]. fold (scale_mat (snd fam)). rewrite vals_scale.
    assert (E : flat_map (fun v => repeat v (length coos)) (map sc (mat_vals (snd fam))) = map sc (flat_map (fun v => repeat v (length coos)) (mat_vals (snd fam)))).
    { induction (mat_vals (snd fam)) as [|v l IH]; [reflexivity|]. cbn [map flat_map]. rewrite map_app, <- IH, repeat_scale. reflexivity. }
    rewrite E. apply (omap_bind (map sc) (map scale_term)); [|intros b _; apply emit_scale].
    apply (ofold_hom2 (map sc) _ _ hopping_scales _ _ _ F). intros x b b' Hb. apply place_scale. intros y. apply Hb.
  Qed.
  Lemma block_scale : forall cap sys shift mods mods' f coos, Forall2 hopping_scales mods mods' ->
    hopping_block cap complex_type (scale_sys sys) shift mods' f coos = omap (map scale_term) (hopping_block cap complex_type sys shift mods f coos).
  Proof.
    intros cap sys shift mods mods' f coos F. unfold hopping_block. destruct coos as [|co coos]; [reflexivity|]. cbn [hs_hop hs_subs hs_pos scale_sys]. rewrite get_scale.
    destruct (reg_get (hs_hop sys) f) as [fam| |]; cbn [obind omap]; try reflexivity. cbn [fst snd m_rows m_cols scale_mat].
    destruct (translator_start (hs_subs sys) (m_rows (snd fam))) as [rs| |]; cbn [obind omap]; try reflexivity. destruct (translator_start (hs_subs sys) (m_cols (snd fam))) as [cs| |]; cbn [obind omap]; try reflexivity.
    change (mat_size (scale_mat (snd fam))) with (mat_size (snd fam)). destruct (mat_size (snd fam) =? 0); [reflexivity|]. destruct (slices _ _ _) as [sl|]; [|reflexivity].
    apply (ofold_hom (map scale_term) _ _ sl []). intros acc cl _. rewrite (slice_scale _ _ _ _ fam rs cs cl F). apply app_scale.
  Qed.
  Lemma hoppings_scale : forall cap sys shift mods mods' h, Forall2 hopping_scales mods mods' ->
    apply_to_hoppings cap complex_type (scale_sys sys) shift mods' h = omap (map scale_term) (apply_to_hoppings cap complex_type sys shift mods h).
  Proof.
    intros cap sys shift mods mods' h F. unfold apply_to_hoppings. cbn [hs_hop scale_sys]. rewrite multiple_scale.
    assert (L : length mods' = length mods) by (clear -F; induction F; cbn; congruence). rewrite L.
    apply (ofold_hom (map scale_term) _ _ (with_family (hb_blocks h)) []). intros acc fb _.
    destruct ((length mods =? 0) && negb (has_multiple_orbitals (hs_hop sys))).
    - unfold hopping_block_fast. cbn [hs_hop scale_sys]. rewrite get_scale. destruct (reg_get (hs_hop sys) (fst fb)) as [fam| |]; cbn [obind omap]; try reflexivity.
      rewrite map_app, map_map. reflexivity.
    - change (HSys (hs_subs sys) (hs_pos sys) (scale_reg (hs_site sys)) (scale_reg (hs_hop sys)) (hs_hops sys) (hs_bounds sys)) with (scale_sys sys).
      rewrite (block_scale cap sys shift _ _ (fst fb) (snd fb) F). apply app_scale.
  Qed.
  Lemma existsb_scale : forall (co : coo) (m : sparse R), existsb (fun e => coo_eqb (fst e) co) (map scale_entry m) = existsb (fun e => coo_eqb (fst e) co) m.
  Proof. intros co m. induction m as [|e m IH]; [reflexivity|]. cbn. rewrite IH. reflexivity. Qed.
  Lemma put_scale : forall strict size m t, put strict size (map scale_entry m) (scale_term t) = omap (map scale_entry) (put strict size m t).
  Proof.
    intros strict size m [[i j] v]. unfold put, scale_term. cbn [fst snd]. destruct ((0 <=? i)%Z && (i <? Z.of_nat size)%Z && (0 <=? j)%Z && (j <? Z.of_nat size)%Z); [|reflexivity].
    rewrite existsb_scale. destruct (strict && existsb (fun e => coo_eqb (fst e) (Z.to_nat i, Z.to_nat j)) m); [reflexivity|]. cbn [omap obind]. rewrite map_app. reflexivity.
  Qed.
  Lemma puts_scale : forall strict size ts m, ofold (put strict size) (map scale_term ts) (map scale_entry m) = omap (map scale_entry) (ofold (put strict size) ts m).
  Proof.
    intros strict size ts. induction ts as [|t ts IH]; intros m; [reflexivity|]. cbn [map ofold]. apply (omap_bind (map scale_entry) (map scale_entry)); [apply put_scale|]. intros x _. apply IH.
  Qed.
  Lemma both_scale : forall hs, flat_map (both (kconj (s := R))) (map scale_term hs) = map scale_term (flat_map (both kconj) hs).
  Proof. intros hs. induction hs as [|[[i j] v] hs IH]; [reflexivity|]. cbn [map flat_map both scale_term fst snd app]. rewrite IH, kconj_mul, c_real. reflexivity. Qed.
  Lemma phase_scale : forall p hs, map (scale_by p) (map scale_term hs) = map scale_term (map (scale_by p) hs).
  Proof. intros p hs. rewrite !map_map. apply map_ext. intros [[i j] v]. unfold scale_by, scale_term. cbn [fst snd]. f_equal. ring. Qed.
  Theorem make_scale_energy : forall cap sys om om' hm hm' unshift phase simple, Forall2 onsite_scales om om' -> Forall2 hopping_scales hm hm' ->
    ham_make cap complex_type (scale_sys sys) om' hm' unshift phase simple = omap (map scale_entry) (ham_make cap complex_type sys om hm unshift phase simple).
  Proof.
    intros cap sys om om' hm hm' unshift phase simple Fo Fh. unfold ham_make. apply (omap_bind (map scale_entry) (map scale_entry)).
    - unfold build_main. apply (omap_bind (map scale_term) (map scale_entry)); [apply onsite_scale; exact Fo|]. intros os _.
      apply (omap_bind (map scale_term) (map scale_entry)); [apply hoppings_scale; exact Fh|]. intros hs _. cbn [nt_conj complex_type]. rewrite both_scale, <- map_app.
      change (hs_subs (scale_sys sys)) with (hs_subs sys). apply (puts_scale simple (hamiltonian_size (hs_subs sys)) _ []).
    - intros m _. unfold build_periodic. change (hs_bounds (scale_sys sys)) with (hs_bounds sys). apply (ofold_hom (map scale_entry)). intros x b _.
      apply (omap_bind (map scale_term) (map scale_entry)); [apply hoppings_scale; exact Fh|]. intros hs _. cbn [nt_conj nt_cast complex_type]. rewrite phase_scale, both_scale.
      change (hs_subs (scale_sys sys)) with (hs_subs sys). apply puts_scale.
  Qed.
End Scale.
