(* Final numbering (get_finalized_indices) and populate_system. *)
From Verif Require Import Base Rle RleProofs Blocks BlocksProofs Foundation IndexProofs DanglingGraph DanglingProofs.

Lemma firstn_S_nth : forall {A} k (l : list A) d, k < length l -> firstn (S k) l = firstn k l ++ [nth k l d].
Proof.
  induction k; intros [|x l] d H; cbn [length] in H; try lia; [reflexivity|].
  cbn [firstn nth app]. f_equal. apply IHk. lia.
Qed.

Lemma rank_S : forall valid k, k < length valid ->
  count_true (firstn (S k) valid) = count_true (firstn k valid) + b2n (nth k valid false).
Proof.
  intros. rewrite (firstn_S_nth k valid false) by auto. rewrite count_true_app, count_true_cons.
  change (count_true []) with 0. lia.
Qed.

Lemma rank_mono : forall valid a b, a <= b -> b <= length valid ->
  count_true (firstn a valid) <= count_true (firstn b valid).
Proof.
  intros valid a b Hab Hb. induction Hab; auto. rewrite rank_S by lia. specialize (IHHab ltac:(lia)). lia.
Qed.

Section Final.
  Context {P : Type}.
  Variable size : idx3.
  Variable uc : list (usite P).
  Variable nfam : nat.
  Hypothesis Hsize : pos_size size.
  Hypothesis Huc : uc_ok uc.
  Hypothesis Hfam : forall u h, In u uc -> In h (u_hops u) -> h_fam h < nfam.

  Let N := Z.to_nat (f_size size (length uc)).

  Variable valid : list bool.
  Hypothesis Hvalid : length valid = N.

  Definition rank (k : nat) : nat := count_true (firstn k valid).

  Definition fin_spec (k i : nat) : Z :=
    if (i <? k) && nth i valid false then Z.of_nat (rank i) else (-1)%Z.

  Lemma finalize_block_ok : forall len k inds nv,
    k + len <= N -> length inds = N -> (forall i, i < N -> nth i inds 0%Z = fin_spec k i) ->
    exists inds' nv', ofold (fun acc i => obind (aget valid i) (fun v =>
           if v then Ok (upd (fst (fst acc)) i (Z.of_nat (snd (fst acc))), S (snd (fst acc)), S (snd acc))
           else Ok acc)) (seq k len) (inds, rank k, nv) = Ok (inds', rank (k + len), nv')
      /\ length inds' = N /\ (forall i, i < N -> nth i inds' 0%Z = fin_spec (k + len) i)
      /\ nv' + rank k = nv + rank (k + len).
  Proof.
    induction len as [|len IH]; intros k inds nv Hk Hl Hi; cbn [seq ofold].
    - exists inds, nv. rewrite Nat.add_0_r. auto.
    - rewrite (aget_ok valid k false) by lia. cbn [obind].
      assert (R : rank (S k) = rank k + b2n (nth k valid false)) by (apply rank_S; lia).
      destruct (nth k valid false) eqn:EV; cbn [obind fst snd].
      + destruct (IH (S k) (upd inds k (Z.of_nat (rank k))) (S nv)) as (inds' & nv' & E & L & S1 & S2).
        * lia.
        * rewrite upd_length; auto.
        * intros i Hin. rewrite nth_upd by lia. unfold fin_spec.
          destruct (Nat.eqb_spec k i) as [->|Hne].
          -- destruct (Nat.ltb_spec i (S i)); [|lia]. rewrite EV. reflexivity.
          -- rewrite Hi by auto. unfold fin_spec. destruct (Nat.ltb_spec i k), (Nat.ltb_spec i (S k)); auto; lia.
        * exists inds', nv'. replace (S (rank k)) with (rank (S k)) by (rewrite R; cbn; lia).
          replace (k + S len) with (S k + len) by lia. repeat split; auto. cbn [b2n] in R. lia.
      + destruct (IH (S k) inds nv) as (inds' & nv' & E & L & S1 & S2).
        * lia.
        * auto.
        * intros i Hin. rewrite Hi by auto. unfold fin_spec.
          destruct (Nat.ltb_spec i k), (Nat.ltb_spec i (S k)); auto; try lia.
          replace i with k by lia. rewrite EV. reflexivity.
        * exists inds', nv'. cbn [b2n] in R.
          replace (rank k) with (rank (S k)) at 1 by lia.
          replace (k + S len) with (S k + len) by lia. repeat split; auto. lia.
  Qed.

  Lemma counts_fold_ok : forall nv hops counts, length counts = nfam ->
    (forall h, In h hops -> h_fam h < nfam) ->
    exists c', ofold (fun counts h => if negb (h_conj h)
          then obind (aget counts (h_fam h)) (fun c => Ok (upd counts (h_fam h) (c + nv)))
          else Ok counts) hops counts = Ok c' /\ length c' = nfam /\
      forall f, f < nfam -> nth f c' 0 = nth f counts 0 + nv * countb (fun h => negb (h_conj h) && (h_fam h =? f)) hops.
  Proof.
    intros nv. induction hops as [|h hops IH]; intros counts L F; cbn [ofold].
    - exists counts. repeat split; auto. intros. unfold countb. simpl. lia.
    - assert (HF : h_fam h < nfam) by (apply F; left; auto).
      unfold countb. cbn [filter]. destruct (h_conj h); cbn [negb andb].
      + cbn [obind]. destruct (IH counts L) as (c' & E & L' & C'); [intros; apply F; right; auto|]. eauto.
      + rewrite (aget_ok counts (h_fam h) 0) by lia. cbn [obind].
        destruct (IH (upd counts (h_fam h) (nth (h_fam h) counts 0 + nv))) as (c' & E & L' & C').
        * rewrite upd_length; auto.
        * intros; apply F; right; auto.
        * exists c'. repeat split; auto. intros f Hf. rewrite C' by auto. rewrite nth_upd by lia.
          destruct (Nat.eqb_spec (h_fam h) f); [subst; cbn [length]; unfold countb; nia|unfold countb; lia].
  Qed.

  Lemma finalized_loop : forall l n inds counts,
    uc = firstn n uc ++ l -> n + length l = length uc ->
    length inds = N -> length counts = nfam ->
    (forall i, i < N -> nth i inds 0%Z = fin_spec (n * Z.to_nat (prod3 size)) i) ->
    exists inds' counts', ofold (fun st nu =>
       obind (finalize_block valid (Z.to_nat (prod3 size)) (fst nu) (fst st)) (fun r =>
       omap (fun counts => (fst r, counts))
         (ofold (fun counts h => if negb (h_conj h)
                                 then obind (aget counts (h_fam h)) (fun c => Ok (upd counts (h_fam h) (c + snd r)))
                                 else Ok counts)
                (u_hops (snd nu)) (snd st))))
       (combine (seq n (length l)) l)
       (inds, rank (n * Z.to_nat (prod3 size)), counts) = Ok (inds', rank N, counts') /\
      length inds' = N /\ (forall i, i < N -> nth i inds' 0%Z = fin_spec N i) /\ length counts' = nfam /\
      (forall f, f < nfam -> nth f counts' 0 = nth f counts 0 + sum_list (map (fun k =>
          (rank ((n + k + 1) * Z.to_nat (prod3 size)) - rank ((n + k) * Z.to_nat (prod3 size))) *
          match nth_error l k with Some u => countb (fun h => negb (h_conj h) && (h_fam h =? f)) (u_hops u) | None => 0 end)
          (seq 0 (length l)))).
  Proof.
    assert (HN : N = Z.to_nat (prod3 size) * length uc) by (apply f_size_nat; auto).
    set (bs := Z.to_nat (prod3 size)) in *.
    induction l as [|u l IH]; intros n inds counts EU EL LI LC HI.
    - cbn [length seq combine ofold map]. exists inds, counts. cbn [length] in EL.
      replace (n * bs) with N in * by (rewrite HN; nia). repeat split; auto.
    - cbn [length seq combine ofold fst snd]. cbn [length] in EL.
      destruct (finalize_block_ok bs (n * bs) inds 0) as (inds' & nv & E & L & S1 & S2); auto; [nia|].
      unfold finalize_block at 1. rewrite E. cbn [obind fst snd].
      destruct (counts_fold_ok nv (u_hops u) counts LC) as (c' & E2 & L2 & C2).
      { intros h Hh. apply (Hfam u); auto. rewrite EU. apply in_app_iff. right; left; auto. }
      rewrite E2. cbn [omap obind].
      destruct (IH (S n) inds' c') as (i3 & c3 & E3 & L3 & S3 & LC3 & C3).
      + rewrite EU at 1. rewrite (firstn_S_nth n uc u) by lia.
        rewrite <- app_assoc. cbn [app]. f_equal.
        assert (nth n uc u = u).
        { rewrite EU, app_nth2; rewrite firstn_length_le by lia; [|lia]. rewrite Nat.sub_diag. reflexivity. }
        congruence.
      + lia.
      + auto.
      + auto.
      + intros i Hi. rewrite S1 by auto. f_equal. lia.
      + exists i3, c3. replace (n * bs + bs) with (S n * bs) by lia. repeat split; auto.
        intros f Hf. rewrite C3, C2 by auto. cbn [map]. rewrite sum_list_cons. cbn [nth_error].
        assert (NV : nv = rank ((n + 0 + 1) * bs) - rank ((n + 0) * bs)).
        { replace ((n + 0 + 1) * bs) with (n * bs + bs) by lia. replace ((n + 0) * bs) with (n * bs) by lia. lia. }
        rewrite <- NV. rewrite <- seq_shift, map_map.
        rewrite (map_ext (fun k => (rank ((S n + k + 1) * bs) - rank ((S n + k) * bs)) *
          match nth_error l k with Some u => countb (fun h => negb (h_conj h) && (h_fam h =? f)) (u_hops u) | None => 0 end)
          (fun x => (rank ((n + S x + 1) * bs) - rank ((n + S x) * bs)) *
          match nth_error (u :: l) (S x) with Some u => countb (fun h => negb (h_conj h) && (h_fam h =? f)) (u_hops u) | None => 0 end)).
        * lia.
        * intros k. cbn [nth_error]. replace (S n + k) with (n + S k) by lia. reflexivity.
  Qed.

  Lemma rank_N : rank N = count_true valid.
  Proof. unfold rank. rewrite <- Hvalid, firstn_all. reflexivity. Qed.

  Lemma finalized_ok : exists inds counts, finalized_indices size uc nfam valid = Ok (inds, counts, count_true valid) /\
    length inds = N /\ length counts = nfam /\
    (forall i, i < N -> nth i inds 0%Z = if nth i valid false then Z.of_nat (rank i) else (-1)%Z) /\
    (forall f, f < nfam -> nth f counts 0 = sum_list (map (fun k =>
          (rank ((k + 1) * Z.to_nat (prod3 size)) - rank (k * Z.to_nat (prod3 size))) *
          match nth_error uc k with Some u => countb (fun h => negb (h_conj h) && (h_fam h =? f)) (u_hops u) | None => 0 end)
          (seq 0 (length uc)))).
  Proof.
    destruct (finalized_loop uc 0 (repeat (-1)%Z N) (repeat 0 nfam)) as (i3 & c3 & E3 & L3 & S3 & LC3 & C3).
    - reflexivity.
    - reflexivity.
    - apply repeat_length.
    - apply repeat_length.
    - intros i Hi. unfold fin_spec. cbn. apply nth_repeat_lt; auto.
    - exists i3, c3. unfold finalized_indices.
      assert (HN : N = Z.to_nat (prod3 size) * length uc) by (apply f_size_nat; auto).
      rewrite <- HN. change (rank (0 * Z.to_nat (prod3 size))) with 0 in E3. rewrite E3. cbn [omap obind fst snd].
      rewrite rank_N. repeat split; auto.
      + intros i Hi. rewrite S3 by auto. unfold fin_spec. destruct (Nat.ltb_spec i N); [|lia]. reflexivity.
      + intros f Hf. rewrite C3 by auto. rewrite nth_repeat. reflexivity.
  Qed.

  (* ------------------------------------------------------------ populate *)
  Variable norb_of : nat -> nat.
  Hypothesis Hnorb : forall u, In u uc -> u_norb u = norb_of (u_alias u).
  Hypothesis Hcontig : forall a b c ua ub uc', a <= b -> b <= c ->
    nth_error uc a = Some ua -> nth_error uc b = Some ub -> nth_error uc c = Some uc' ->
    u_alias ua = u_alias uc' -> u_alias ub = u_alias ua.
  Hypothesis Hsorted : forall a b ua ub, a <= b -> nth_error uc a = Some ua -> nth_error uc b = Some ub ->
    u_norb ua <= u_norb ub.

  Variable fpos : list P.
  Variable dflt : P.
  Hypothesis Hpos : length fpos = N.

  Definition sub_of (v : nat) : nat := Z.to_nat (s_sub (unflat size (Z.of_nat v))).
  Definition label_of (v : nat) : nat * nat :=
    match nth_error uc (sub_of v) with Some u => (u_alias u, u_norb u) | None => (0, 0) end.

  Definition pair_of (f v : nat) (x : site * hop) : list coo :=
    let t := Z.to_nat (s_flat (fst x)) in
    if nth t valid false && negb (h_conj (snd x)) && (h_fam (snd x) =? f) then [(rank v, rank t)] else [].
  Definition hops_at (f v : nat) : list coo :=
    if nth v valid false then flat_map (pair_of f v) (nb_list size uc v) else [].

  Variable fin : list Z.
  Hypothesis Hfin_len : length fin = N.
  Hypothesis Hfin : forall i, i < N -> nth i fin 0%Z = if nth i valid false then Z.of_nat (rank i) else (-1)%Z.

  Lemma agetZ_fin : forall z, (0 <= z < Z.of_nat N)%Z ->
    agetZ fin z = Ok (if nth (Z.to_nat z) valid false then Z.of_nat (rank (Z.to_nat z)) else (-1)%Z).
  Proof.
    intros z Hz. rewrite <- (Z2Nat.id z) at 1 by lia. rewrite agetZ_nat.
    rewrite (aget_ok fin (Z.to_nat z) 0%Z) by (rewrite Hfin_len; lia). rewrite Hfin by lia. reflexivity.
  Qed.

  Lemma add_hops_ok : forall v l hb, v < N -> (forall x, In x l -> In x (nb_list size uc v)) ->
    length (hb_blocks hb) = nfam ->
    exists hb', add_neighbor_hops fin (Z.of_nat (rank v)) l hb = Ok hb' /\ hb_n hb' = hb_n hb /\
      length (hb_blocks hb') = nfam /\
      forall f, f < nfam -> nth f (hb_blocks hb') [] = nth f (hb_blocks hb) [] ++ flat_map (pair_of f v) l.
  Proof.
    intros v l. induction l as [|[s h] l IH]; intros hb Hv Hl Hb; unfold add_neighbor_hops; cbn [ofold].
    - exists hb. repeat split; auto. intros. rewrite app_nil_r. reflexivity.
    - destruct (nb_elem size uc Hsize Huc v s h Hv (Hl _ (or_introl eq_refl))) as (us & Eu & Ih & _ & _ & _ & _ & _ & B).
      cbn [fst snd]. rewrite agetZ_fin by exact B. cbn [obind].
      assert (Ff : h_fam h < nfam) by (apply (Hfam us); auto; eapply nth_error_In; eauto).
      destruct (nth (Z.to_nat (s_flat s)) valid false) eqn:EV.
      + destruct (Z.ltb_spec (Z.of_nat (rank (Z.to_nat (s_flat s)))) 0); [lia|].
        destruct (h_conj h) eqn:EC; cbn [negb].
        * cbn [obind]. destruct (IH hb Hv) as (hb' & E & A & B' & C); [intros; apply Hl; right; assumption|cbn [hb_blocks]; rewrite ?upd_length; exact Hb|].
          exists hb'. split; [unfold add_neighbor_hops in E; rewrite ?Nat2Z.id in E; rewrite ?Nat2Z.id; exact E|]. split; [exact A|]. split; [exact B'|]. intros f Hf. rewrite C by auto. cbn [flat_map]. unfold pair_of at 2. cbn [fst snd].
          rewrite EC, EV. cbn. reflexivity.
        * unfold hb_add. rewrite (aget_ok (hb_blocks hb) (h_fam h) []) by lia. cbn [obind]. rewrite !Nat2Z.id.
          edestruct (IH (HB (hb_n hb) (upd (hb_blocks hb) (h_fam h) (nth (h_fam h) (hb_blocks hb) [] ++ [(rank v, rank (Z.to_nat (s_flat s)))])))) as (hb' & E & A & B' & C); [exact Hv|intros; apply Hl; right; assumption|cbn [hb_blocks]; rewrite ?upd_length; exact Hb|].
          exists hb'. split; [unfold add_neighbor_hops in E; rewrite ?Nat2Z.id in E; rewrite ?Nat2Z.id; exact E|]. split; [exact A|]. split; [exact B'|]. intros f Hf. rewrite C by auto. cbn [hb_blocks flat_map].
          rewrite nth_upd by lia. unfold pair_of at 2. cbn [fst snd]. rewrite EC, EV. cbn [negb andb].
          destruct (Nat.eqb_spec (h_fam h) f); [subst; rewrite <- app_assoc; reflexivity|reflexivity].
      + cbn [Z.ltb Z.compare]. cbn [obind]. destruct (IH hb Hv) as (hb' & E & A & B' & C); [intros; apply Hl; right; assumption|exact Hb|].
        exists hb'. split; [unfold add_neighbor_hops in E; rewrite ?Nat2Z.id in E; rewrite ?Nat2Z.id; exact E|]. split; [exact A|]. split; [exact B'|]. intros f Hf. rewrite C by auto. cbn [flat_map]. unfold pair_of at 2. cbn [fst snd].
        rewrite EV. cbn. reflexivity.
  Qed.

  (** Structure of the compressed table while sites of non-decreasing sublattice arrive. *)
  Definition from_sub (s : nat) (e : element) : Prop :=
    exists a u, a <= s /\ nth_error uc a = Some u /\ e_id e = u_alias u /\ e_norb e = u_norb u.

  Record table_ok (d : rle) (s : nat) : Prop := {
    to_from : Forall (from_sub s) d;
    to_nodup : NoDup (alias_ids d);
    to_sorted : sortedP (orbital_counts d);
    to_last : forall e d' us, d = d' ++ [e] -> nth_error uc s = Some us -> e_id e = u_alias us
  }.

  Lemma from_sub_mono : forall s s' e, s <= s' -> from_sub s e -> from_sub s' e.
  Proof. intros s s' e H (a & u & A & B). exists a, u. split; [lia|auto]. Qed.

  Lemma sortedP_snoc : forall l x, sortedP l -> (forall y, In y l -> y <= x) -> sortedP (l ++ [x]).
  Proof.
    induction l as [|y l IH]; intros x S H; cbn [app sortedP].
    - split; [intros ? []|exact I].
    - destruct S as [S1 S2]. split.
      + intros z Hz. apply in_app_iff in Hz. destruct Hz as [Hz|[<-|[]]]; auto. apply H. left; auto.
      + apply IH; auto. intros; apply H; right; auto.
  Qed.

  Lemma table_ok_add : forall d s0 s us, table_ok d s0 -> s0 <= s -> s0 < length uc -> nth_error uc s = Some us ->
    table_ok (rle_add d (u_alias us) (u_norb us) 1) s.
  Proof.
    intros d s0 s us [F ND SO LA] Hs H0 Eu.
    assert (Us0 : exists u0, nth_error uc s0 = Some u0).
    { destruct (nth_error uc s0) eqn:E; eauto. apply nth_error_None in E. lia. }
    destruct Us0 as (u0 & Eu0).
    - assert (Hne : d = [] \/ exists d' e, d = d' ++ [e]).
      { destruct d as [|x d]; [left; reflexivity|right].
        destruct (@exists_last _ (x :: d)) as (d' & e & E); [discriminate|eauto]. }
      destruct Hne as [->|(d' & e & ->)].
      + constructor; cbn.
        * constructor; [|constructor]. exists s, us. auto.
        * constructor; [intros []|constructor].
        * split; [intros ? []|exact I].
        * intros e d' us' E E'. destruct d' as [|x d']; [|destruct d'; discriminate]. injection E as <-. cbn. congruence.
      + rewrite rle_add_snoc. specialize (LA e d' u0 eq_refl Eu0).
        rewrite Forall_app in F. destruct F as [F1 F2]. inversion F2 as [|? ? Fe _]; subst.
        destruct (Nat.eqb_spec (e_id e) (u_alias us)) as [Eq|Ne].
        * constructor.
          -- rewrite Forall_app. split.
             ++ eapply Forall_impl; [|exact F1]. intros. eapply from_sub_mono; eauto.
             ++ constructor; [|constructor]. destruct Fe as (a & u & A & B & C & D). exists a, u. cbn. repeat split; auto. lia.
          -- unfold alias_ids in *. rewrite map_app in *. exact ND.
          -- unfold orbital_counts in *. rewrite map_app in *. exact SO.
          -- intros e2 d2 us' E E'. apply app_inj_tail in E. destruct E as [_ <-]. cbn. congruence.
        * constructor.
          -- rewrite Forall_app. split.
             ++ eapply Forall_impl; [|exact F1]. intros. eapply from_sub_mono; eauto.
             ++ constructor; [eapply from_sub_mono; eauto|]. constructor; [|constructor]. exists s, us. auto.
          -- change (d' ++ [e; Elem (u_alias us) 1 (u_norb us)]) with (d' ++ [e] ++ [Elem (u_alias us) 1 (u_norb us)]).
             rewrite app_assoc. unfold alias_ids in *. rewrite map_app. cbn [map e_id].
             apply NoDup_app_intro; auto.
             ++ constructor; [intros []|constructor].
             ++ intros x Hx [<-|[]]. apply in_map_iff in Hx. destruct Hx as (e1 & E1 & Hin).
                assert (FS : from_sub s0 e1).
                { rewrite in_app_iff in Hin. destruct Hin as [Hin|[<-|[]]]; auto. rewrite Forall_forall in F1. auto. }
                destruct FS as (a & u & A & B & C & D).
                pose proof (Hcontig a s0 s u u0 us A Hs B Eu0 Eu ltac:(congruence)). congruence.
          -- change (d' ++ [e; Elem (u_alias us) 1 (u_norb us)]) with (d' ++ [e] ++ [Elem (u_alias us) 1 (u_norb us)]).
             rewrite app_assoc. unfold orbital_counts in *. rewrite map_app. cbn [map e_norb].
             apply sortedP_snoc; auto.
             intros y Hy. apply in_map_iff in Hy. destruct Hy as (e1 & <- & Hin).
                assert (FS : from_sub s0 e1).
                { rewrite in_app_iff in Hin. destruct Hin as [Hin|[<-|[]]]; auto. rewrite Forall_forall in F1. auto. }
                destruct FS as (a & u & A & B & C & D). rewrite D. apply (Hsorted a s); auto. lia.
          -- intros e2 d2 us' E E'.
             change (d' ++ [e; Elem (u_alias us) 1 (u_norb us)]) with (d' ++ [e] ++ [Elem (u_alias us) 1 (u_norb us)]) in E.
             rewrite app_assoc in E. apply app_inj_tail in E. destruct E as [_ <-]. cbn. congruence.
  Qed.

  Lemma sub_of_mono : forall v w, v <= w -> sub_of v <= sub_of w.
  Proof.
    intros v w H. unfold sub_of. cbn [unflat s_sub]. destruct Hsize as (Hx & Hy & Hz).
    apply Z2Nat.inj_le.
    - apply Z.div_pos; [|lia]. apply Z.div_pos; [|lia]. apply Z.div_pos; lia.
    - apply Z.div_pos; [|lia]. apply Z.div_pos; [|lia]. apply Z.div_pos; lia.
    - apply Z.div_le_mono; [lia|]. apply Z.div_le_mono; [lia|]. apply Z.div_le_mono; lia.
  Qed.

  Lemma sub_of_lt : forall v, v < N -> sub_of v < length uc.
  Proof. intros v Hv. destruct (unflat_range size uc Hsize v Hv) as [_ B]. unfold sub_of. lia. Qed.

  Lemma upd_boundary : forall {A} (l : list A) x y n, upd (l ++ repeat x (S n)) (length l) y = (l ++ [y]) ++ repeat x n.
  Proof. intros A l x y n. induction l as [|a l IH]; [reflexivity|]. cbn [app length upd]. rewrite IH. reflexivity. Qed.

  Lemma mask_snoc : forall {A} k (l : list A) b x, length k = length l ->
    mask (k ++ [b]) (l ++ [x]) = mask k l ++ (if b then [x] else []).
  Proof. intros. rewrite mask_app by auto. destruct b; reflexivity. Qed.

  Definition pop_inv (k : nat) (st : list P * rle * hblocks) : Prop :=
    fst (fst st) = mask (firstn k valid) (firstn k fpos) ++ repeat dflt (rank N - rank k) /\
    labels (snd (fst st)) = mask (firstn k valid) (map label_of (seq 0 k)) /\
    (snd (fst st) = [] \/ exists v, v < k /\ table_ok (snd (fst st)) (sub_of v)) /\
    hb_n (snd st) = rank N /\ length (hb_blocks (snd st)) = nfam /\
    (forall f, f < nfam -> nth f (hb_blocks (snd st)) [] = flat_map (hops_at f) (seq 0 k)).

  Lemma seq_snoc : forall k, seq 0 (S k) = seq 0 k ++ [k].
  Proof. intros. replace (S k) with (k + 1) by lia. rewrite seq_app. reflexivity. Qed.

  Lemma populate_step_ok : forall k st, k < N -> pop_inv k st ->
    exists st', populate_step size uc fin fpos st (unflat size (Z.of_nat k)) = Ok st' /\ pop_inv (S k) st'.
  Proof.
    intros k [[pos d] hb] Hk (I1 & I2 & I3 & I4 & I5 & I6). cbn [fst snd] in *. unfold populate_step. cbn [fst snd].
    change (s_flat (unflat size (Z.of_nat k))) with (Z.of_nat k).
    rewrite agetZ_fin by lia. rewrite Nat2Z.id. cbn [obind].
    assert (R : rank (S k) = rank k + b2n (nth k valid false)) by (apply rank_S; lia).
    assert (Lv : length (firstn k valid) = k) by (apply firstn_length_le; lia).
    assert (Lp : length (firstn k fpos) = k) by (apply firstn_length_le; lia).
    assert (Ll : length (map label_of (seq 0 k)) = k) by (rewrite map_length, seq_length; auto).
    destruct (nth k valid false) eqn:EV; cbn [b2n] in R.
    - destruct (Z.ltb_spec (Z.of_nat (rank k)) 0); [lia|].
      rewrite agetZ_nat. rewrite (aget_ok fpos k dflt) by lia. cbn [obind].
      assert (RN : rank (S k) <= rank N) by (apply rank_mono; lia).
      assert (Lm : length (mask (firstn k valid) (firstn k fpos)) = rank k) by (rewrite mask_length by lia; reflexivity).
      rewrite asetZ_nat. rewrite (aget_ok pos (rank k) dflt).
      2:{ rewrite I1, app_length, repeat_length, Lm. lia. }
      cbn [obind].
      destruct (neighbors_ok size uc Hsize k Hk) as (u & Eu & En & _).
      pose proof (sub_of_lt k Hk) as SL.
      assert (EA : agetZ uc (s_sub (unflat size (Z.of_nat k))) = Ok u).
      { destruct (unflat_range size uc Hsize k Hk) as [_ B]. unfold agetZ.
        destruct (Z.ltb_spec (s_sub (unflat size (Z.of_nat k))) 0); [lia|]. unfold aget. rewrite Eu. reflexivity. }
      rewrite EA, En. cbn [obind].
      destruct (add_hops_ok k (nb_list size uc k) hb Hk (fun x H => H) I5) as (hb' & E & A & B & C).
      rewrite E. cbn [obind]. eexists. split; [reflexivity|].
      unfold pop_inv. cbn [fst snd].
      split; [|split; [|split; [|split; [|split]]]].
      + rewrite I1. rewrite (firstn_S_nth k valid false), (firstn_S_nth k fpos dflt) by lia.
        rewrite mask_snoc by lia. rewrite EV.
        replace (rank N - rank k) with (S (rank N - rank (S k))) by lia. rewrite <- Lm at 1. apply upd_boundary.
      + rewrite labels_add.
        * rewrite I2. rewrite (firstn_S_nth k valid false) by lia. rewrite seq_snoc, map_app. cbn [map].
          rewrite mask_snoc by lia. rewrite EV. unfold label_of at 3. change (sub_of k) with (Z.to_nat (s_sub (unflat size (Z.of_nat k)))). rewrite Eu. reflexivity.
        * intros e d' Ed Ee. destruct I3 as [->|(v & Hv & TO)]; [destruct d'; discriminate|].
          pose proof (to_from _ _ TO) as F. rewrite Forall_forall in F.
          destruct (F e) as (a & ua & A1 & A2 & A3 & A4); [rewrite Ed; apply in_app_iff; right; left; auto|].
          rewrite A4. rewrite (Hnorb ua) by (eapply nth_error_In; eauto).
          rewrite (Hnorb u) by (eapply nth_error_In; eauto). congruence.
      + right. exists k. split; [lia|]. destruct I3 as [->|(v & Hv & TO)].
        * apply (table_ok_add [] (sub_of k)); auto.
          constructor; [constructor|constructor|exact I|]. intros e d' us E'. destruct d'; discriminate.
        * apply (table_ok_add d (sub_of v)); auto.
          -- apply sub_of_mono. lia.
          -- apply sub_of_lt. lia.
      + congruence.
      + exact B.
      + intros f Hf. rewrite C by auto. rewrite seq_snoc, flat_map_app. rewrite I6 by auto. cbn [flat_map].
        rewrite app_nil_r. unfold hops_at at 3. rewrite EV. reflexivity.
    - cbn [Z.ltb Z.compare]. eexists. split; [reflexivity|]. unfold pop_inv. cbn [fst snd].
      rewrite (firstn_S_nth k valid false), (firstn_S_nth k fpos dflt), EV by lia.
      rewrite seq_snoc, map_app. cbn [map]. rewrite !mask_snoc, !app_nil_r by lia.
      replace (rank (S k)) with (rank k) by lia.
      split; [auto|split; [auto|split; [|split; [auto|split; [auto|]]]]].
      + destruct I3 as [->|(v & Hv & TO)]; [left; auto|right]. exists v. split; [lia|auto].
      + intros f Hf. rewrite flat_map_app. rewrite I6 by auto. cbn [flat_map]. unfold hops_at at 3. rewrite EV.
        rewrite !app_nil_r. reflexivity.
  Qed.

  Lemma populate_loop : forall len k st, k + len <= N -> pop_inv k st ->
    exists st', ofold (populate_step size uc fin fpos) (map (fun k => unflat size (Z.of_nat k)) (seq k len)) st = Ok st' /\
      pop_inv (k + len) st'.
  Proof.
    induction len as [|len IH]; intros k st Hk HI; cbn [seq map ofold].
    - exists st. rewrite Nat.add_0_r. auto.
    - destruct (populate_step_ok k st ltac:(lia) HI) as (st1 & E1 & I1). rewrite E1. cbn [obind].
      destruct (IH (S k) st1 ltac:(lia) I1) as (st' & E & I'). exists st'. split; [exact E|].
      replace (k + S len) with (S k + len) by lia. exact I'.
  Qed.

  Lemma populate_loop_ok : exists d hb,
    ofold (populate_step size uc fin fpos) (all_sites size (length uc)) (repeat dflt (count_true valid), [], hb_new (count_true valid) nfam)
      = Ok (mask valid fpos, d, hb) /\
    rle_verify d (count_true valid) = true /\
    labels d = mask valid (map label_of (seq 0 N)) /\
    hb_n hb = count_true valid /\ length (hb_blocks hb) = nfam /\
    (forall f, f < nfam -> nth f (hb_blocks hb) [] = flat_map (hops_at f) (seq 0 N)).
  Proof.
    destruct (populate_loop N 0 (repeat dflt (count_true valid), [], hb_new (count_true valid) nfam)) as ([[pos d] hb] & E & I1 & I2 & I3 & I4 & I5 & I6).
    - lia.
    - unfold pop_inv, hb_new. cbn [fst snd hb_n hb_blocks]. rewrite rank_N. change (rank 0) with 0. rewrite Nat.sub_0_r.
      split; [reflexivity|split; [reflexivity|split; [left; reflexivity|split; [reflexivity|split; [apply repeat_length|]]]]].
      intros f Hf. cbn. apply nth_repeat_lt; auto.
    - cbn [fst snd Nat.add] in *. rewrite (firstn_all2 valid), (firstn_all2 fpos) in I1 by lia.
      rewrite Nat.sub_diag, app_nil_r in I1. subst pos.
      rewrite (firstn_all2 valid) in I2 by lia. rewrite rank_N in I4.
      exists d, hb. rewrite all_sites_eq by auto. split; [exact E|].
      split; [|auto].
      unfold rle_verify. rewrite !andb_true_iff. split; [split|].
      + apply Nat.eqb_eq. rewrite rle_size_labels, I2. apply mask_length. rewrite map_length, seq_length; auto.
      + apply Nat.eqb_eq. unfold num_distinct. destruct I3 as [->|(v & Hv & TO)]; [reflexivity|].
        rewrite nodup_fixed_point by (apply (to_nodup _ _ TO)). unfold alias_ids. apply map_length.
      + apply is_sorted_sortedP. destruct I3 as [->|(v & Hv & TO)]; [exact I|]. apply (to_sorted _ _ TO).
  Qed.
End Final.
