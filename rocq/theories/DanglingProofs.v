(* The site-level remove_dangling model is an instance of the abstract graph procedure. *)
From Verif Require Import Base Rle Blocks Foundation IndexProofs DanglingGraph.

(** Well-formed unit cell: destinations exist, no neighbour listed twice, every entry has its
    reverse (established for all lattices in the Lattice files). *)
Record uc_ok {P} (uc : list (usite P)) : Prop := {
  uc_to : forall a u h, nth_error uc a = Some u -> In h (u_hops u) -> h_to h < length uc;
  uc_nodup : forall a u, nth_error uc a = Some u -> NoDup (map (fun h => (h_rel h, h_to h)) (u_hops u));
  uc_sym : forall a u h, nth_error uc a = Some u -> In h (u_hops u) ->
     exists u' h', nth_error uc (h_to h) = Some u' /\ In h' (u_hops u') /\
        h_rel h' = neg3 (h_rel h) /\ h_to h' = a /\ h_fam h' = h_fam h /\ h_conj h' = negb (h_conj h)
}.

Lemma agetZ_nat : forall {A} (l : list A) k, agetZ l (Z.of_nat k) = aget l k.
Proof. intros. unfold agetZ. destruct (Z.ltb_spec (Z.of_nat k) 0); [lia|]. rewrite Nat2Z.id. reflexivity. Qed.

Lemma asetZ_nat : forall {A} (l : list A) k x, asetZ l (Z.of_nat k) x = obind (aget l k) (fun _ => Ok (upd l k x)).
Proof. intros. unfold asetZ. rewrite agetZ_nat, Nat2Z.id. reflexivity. Qed.


Section Inst.
  Context {P : Type}.
  Variable size : idx3.
  Variable uc : list (usite P).
  Hypothesis Hsize : pos_size size.
  Hypothesis Huc : uc_ok uc.

  Let N := Z.to_nat (f_size size (length uc)).

  Definition nb_list (v : nat) : list (site * hop) :=
    match neighbors size uc (s_idx (unflat size (Z.of_nat v))) (s_sub (unflat size (Z.of_nat v))) with
    | Ok l => l | _ => [] end.
  Definition nbf (v : nat) : list nat := map (fun x => Z.to_nat (s_flat (fst x))) (nb_list v).

  Lemma unflat_range : forall v, v < N ->
    cell_in size (s_idx (unflat size (Z.of_nat v))) /\
    (0 <= s_sub (unflat size (Z.of_nat v)) < Z.of_nat (length uc))%Z.
  Proof. intros v Hv. apply unflat_in; auto. unfold N in Hv. lia. Qed.

  Lemma neighbors_ok : forall v, v < N -> exists u,
    nth_error uc (Z.to_nat (s_sub (unflat size (Z.of_nat v)))) = Some u /\
    neighbors size uc (s_idx (unflat size (Z.of_nat v))) (s_sub (unflat size (Z.of_nat v))) = Ok (nb_list v) /\
    nb_list v = map (fun h => (mk_site size (add3 (s_idx (unflat size (Z.of_nat v))) (h_rel h)) (Z.of_nat (h_to h)), h))
          (filter (fun h => in_block size (add3 (s_idx (unflat size (Z.of_nat v))) (h_rel h))) (u_hops u)).
  Proof.
    intros v Hv. destruct (unflat_range v Hv) as [C D].
    destruct (nth_error uc (Z.to_nat (s_sub (unflat size (Z.of_nat v))))) as [u|] eqn:E.
    2:{ apply nth_error_None in E. lia. }
    exists u. split; auto. unfold nb_list, neighbors.
    destruct (Z.ltb_spec (s_sub (unflat size (Z.of_nat v))) 0); [lia|].
    unfold aget. rewrite E. cbn [obind]. auto.
  Qed.

  Lemma nb_elem : forall v s h, v < N -> In (s, h) (nb_list v) ->
    exists u, nth_error uc (Z.to_nat (s_sub (unflat size (Z.of_nat v)))) = Some u /\ In h (u_hops u) /\
      s_idx s = add3 (s_idx (unflat size (Z.of_nat v))) (h_rel h) /\ cell_in size (s_idx s) /\
      s_sub s = Z.of_nat (h_to h) /\ h_to h < length uc /\
      s = unflat size (s_flat s) /\ (0 <= s_flat s < Z.of_nat N)%Z.
  Proof.
    intros v s h Hv Hin. destruct (neighbors_ok v Hv) as (u & E & _ & L). rewrite L in Hin.
    apply in_map_iff in Hin. destruct Hin as (h' & Hs & Hf). injection Hs as <- <-.
    apply filter_In in Hf. destruct Hf as [Hin Hb]. apply in_block_spec in Hb.
    exists u. pose proof (uc_to _ Huc _ _ _ E Hin) as HT.
    pose proof (flat_bounds size _ (Z.of_nat (h_to h')) (length uc) Hb ltac:(lia)) as FB.
    split; [auto|]. split; [auto|]. split; [reflexivity|]. split; [exact Hb|]. split; [reflexivity|]. split; [auto|].
    split; [unfold mk_site; cbn [s_flat]; rewrite unflat_flat by auto; reflexivity|].
    unfold N. rewrite Z2Nat.id by (clear -FB; lia). exact FB.
  Qed.

  Lemma nbf_range : forall v u, v < N -> In u (nbf v) -> u < N.
  Proof.
    intros v u Hv Hu. unfold nbf in Hu. apply in_map_iff in Hu. destruct Hu as ((s, h) & <- & Hin).
    destruct (nb_elem v s h Hv Hin) as (_ & _ & _ & _ & _ & _ & _ & _ & B). cbn [fst]. lia.
  Qed.

  Lemma nb_to : forall v u, v < N -> In u (nbf v) <->
    exists us h, nth_error uc (Z.to_nat (s_sub (unflat size (Z.of_nat v)))) = Some us /\ In h (u_hops us) /\
      u < N /\ s_idx (unflat size (Z.of_nat u)) = add3 (s_idx (unflat size (Z.of_nat v))) (h_rel h) /\
      s_sub (unflat size (Z.of_nat u)) = Z.of_nat (h_to h).
  Proof.
    intros v u Hv. split.
    - intros Hu. unfold nbf in Hu. apply in_map_iff in Hu. destruct Hu as ((s, h) & <- & Hin). cbn [fst].
      destruct (nb_elem v s h Hv Hin) as (us & E & Ih & A & B & C & D & F & G).
      exists us, h. repeat split; auto; try lia.
      + rewrite Z2Nat.id by lia. rewrite <- F. auto.
      + rewrite Z2Nat.id by lia. rewrite <- F. auto.
    - intros (us & h & E & Ih & Hu & A & B).
      destruct (neighbors_ok v Hv) as (us' & E' & _ & L). assert (us' = us) by congruence. subst us'.
      unfold nbf. apply in_map_iff.
      exists (mk_site size (add3 (s_idx (unflat size (Z.of_nat v))) (h_rel h)) (Z.of_nat (h_to h)), h).
      split.
      + cbn [fst]. unfold mk_site. cbn [s_flat]. rewrite <- A, <- B, flat_unflat by auto. lia.
      + rewrite L. apply in_map_iff. exists h. split; auto. apply filter_In. split; auto.
        apply in_block_spec. rewrite <- A. apply unflat_range; auto.
  Qed.

  Lemma add3_neg : forall a b c, c = add3 a b -> a = add3 c (neg3 b).
  Proof. intros [a1 a2 a3] [b1 b2 b3] [c1 c2 c3] E. unfold add3, neg3 in *. cbn in *. injection E as -> -> ->. f_equal; lia. Qed.

  Lemma nbf_sym : forall v u, v < N -> u < N -> In u (nbf v) -> In v (nbf u).
  Proof.
    intros v u Hv Hu Hin. apply (nb_to v u Hv) in Hin. destruct Hin as (us & h & E & Ih & _ & A & B).
    apply (nb_to u v Hu). destruct (uc_sym _ Huc _ _ _ E Ih) as (u' & h' & E' & Ih' & R & T & _).
    exists u', h'. repeat split; auto.
    - rewrite B, Nat2Z.id. auto.
    - rewrite R. apply add3_neg. auto.
    - rewrite T, Z2Nat.id; auto. apply unflat_range; auto.
  Qed.

  Lemma NoDup_map_inj_in : forall {A B} (f : A -> B) l,
    (forall x y, In x l -> In y l -> f x = f y -> x = y) -> NoDup l -> NoDup (map f l).
  Proof.
    induction l as [|x l IH]; intros H ND; simpl; [constructor|]. inversion ND; subst. constructor.
    - intros Hin. apply in_map_iff in Hin. destruct Hin as (y & Ey & Hy).
      assert (y = x) by (apply H; [right; auto|left; auto|auto]). subst. contradiction.
    - apply IH; auto. intros; apply H; auto; right; auto.
  Qed.

  Lemma NoDup_map_inv2 : forall {A B} (f : A -> B) l, NoDup (map f l) -> NoDup l.
  Proof. intros. eapply NoDup_map_inv; eauto. Qed.

  Lemma NoDup_map_inj : forall {A B} (f : A -> B) l x y, NoDup (map f l) -> In x l -> In y l -> f x = f y -> x = y.
  Proof.
    induction l as [|z l IH]; intros x y ND Hx Hy E; [inversion Hx|]. simpl in ND. inversion ND; subst.
    destruct Hx as [->|Hx], Hy as [->|Hy]; auto.
    - exfalso. apply H1. rewrite E. apply in_map; auto.
    - exfalso. apply H1. rewrite <- E. apply in_map; auto.
  Qed.

  Lemma nbf_nodup : forall v, v < N -> NoDup (nbf v).
  Proof.
    intros v Hv. destruct (neighbors_ok v Hv) as (us & E & _ & L). unfold nbf. rewrite L, map_map. cbn [fst mk_site s_flat].
    pose proof (uc_nodup _ Huc _ _ E) as ND.
    apply NoDup_map_inj_in.
    - intros x y Hx Hy Eq. apply filter_In in Hx. apply filter_In in Hy.
      destruct Hx as [Hx Bx], Hy as [Hy By]. apply in_block_spec in Bx. apply in_block_spec in By.
      pose proof (uc_to _ Huc _ _ _ E Hx). pose proof (uc_to _ Huc _ _ _ E Hy).
      pose proof (flat_bounds size _ (Z.of_nat (h_to x)) (length uc) Bx ltac:(lia)).
      pose proof (flat_bounds size _ (Z.of_nat (h_to y)) (length uc) By ltac:(lia)).
      assert (Eq2 : flat_of size (add3 (s_idx (unflat size (Z.of_nat v))) (h_rel x)) (Z.of_nat (h_to x)) =
              flat_of size (add3 (s_idx (unflat size (Z.of_nat v))) (h_rel y)) (Z.of_nat (h_to y))) by lia.
      apply flat_inj in Eq2; auto. destruct Eq2 as [Er Et].
      eapply (NoDup_map_inj _ _ x y ND); auto. f_equal.
      + destruct (h_rel x), (h_rel y), (s_idx (unflat size (Z.of_nat v))). unfold add3 in Er. cbn in Er.
        injection Er; intros. f_equal; lia.
      + lia.
    - apply NoDup_filter. eapply NoDup_map_inv; eauto.
  Qed.

  (** Simulation of the recursion. *)
  Lemma clear_sim : forall m fuel v st, v < N ->
    clear_neighbors fuel size uc m (unflat size (Z.of_nat v)) st = aclear nbf m fuel v st.
  Proof.
    intros m. induction fuel as [|fuel IH]; intros v st Hv; [reflexivity|].
    cbn [clear_neighbors aclear]. change (s_flat (unflat size (Z.of_nat v))) with (Z.of_nat v).
    rewrite agetZ_nat. destruct (aget (snd st) v) as [c0| |]; cbn [obind]; auto.
    destruct (c0 =? 0)%Z; auto.
    destruct (neighbors_ok v Hv) as (us & _ & EN & _). rewrite EN. cbn [obind].
    assert (FOLD : forall l st, (forall x, In x l -> In x (nb_list v)) ->
      ofold (fun st nh =>
             let ns := fst nh in
             obind (agetZ (fst st) (s_flat ns)) (fun v =>
             if negb v then Ok st else
             obind (agetZ (snd st) (s_flat ns)) (fun c =>
             obind (asetZ (snd st) (s_flat ns) (c - 1)%Z) (fun cnt =>
             if (c - 1 <? m)%Z then
               obind (asetZ (fst st) (s_flat ns) false) (fun val =>
               clear_neighbors fuel size uc m ns (val, cnt))
             else Ok (fst st, cnt))))) l st
      = ofold (fun st u =>
             obind (aget (fst st) u) (fun b =>
             if negb b then Ok st else
             obind (aget (snd st) u) (fun c =>
             if (c - 1 <? m)%Z then aclear nbf m fuel u (upd (fst st) u false, upd (snd st) u (c - 1)%Z)
             else Ok (fst st, upd (snd st) u (c - 1)%Z)))) (map (fun x => Z.to_nat (s_flat (fst x))) l) st).
    { induction l as [|[s h] l IHl]; intros st0 Hl; [reflexivity|]. cbn [ofold map fst].
      destruct (nb_elem v s h Hv (Hl _ (or_introl eq_refl))) as (_ & _ & _ & _ & _ & _ & _ & F & B).
      set (k := Z.to_nat (s_flat s)) in *. assert (K : s_flat s = Z.of_nat k) by (unfold k; lia).
      rewrite K, !agetZ_nat. destruct (aget (fst st0) k) as [b| |] eqn:EB; cbn [obind]; auto.
      destruct b; cbn [negb].
      2:{ cbn [obind]. apply IHl. intros; apply Hl; right; auto. }
      destruct (aget (snd st0) k) as [c| |] eqn:EC; cbn [obind]; auto.
      rewrite asetZ_nat, EC. cbn [obind].
      destruct (c - 1 <? m)%Z.
      - rewrite asetZ_nat, EB. cbn [obind]. rewrite F, K, IH by (unfold k; lia).
        destruct (aclear nbf m fuel k (upd (fst st0) k false, upd (snd st0) k (c - 1)%Z)); cbn [obind]; auto.
        apply IHl. intros; apply Hl; right; auto.
      - cbn [obind]. apply IHl. intros; apply Hl; right; auto. }
    rewrite FOLD by auto. fold (nbf v).
    destruct (ofold _ (nbf v) st) as [st'| |]; cbn [obind]; auto.
    rewrite asetZ_nat. destruct (aget (snd st') v); reflexivity.
  Qed.

  Lemma fold_count : forall (p : hop -> bool) l n,
    fold_left (fun n h => if negb (p h) then (n - 1)%Z else n) l n
    = (n - Z.of_nat (length l) + Z.of_nat (length (filter p l)))%Z.
  Proof.
    intros p. induction l as [|h l IH]; intros n; cbn [fold_left filter length]; [lia|].
    rewrite IH. destruct (p h); cbn [negb length]; lia.
  Qed.

  Lemma ofold_set_seq : forall (f : nat -> Z) k s l, s + k <= length l ->
    exists l', ofold (fun counts v => asetZ counts (Z.of_nat v) (f v)) (seq s k) l = Ok l' /\
      length l' = length l /\
      forall i, nth i l' 0%Z = if (s <=? i) && (i <? s + k) then f i else nth i l 0%Z.
  Proof.
    intros f. induction k as [|k IH]; intros s l Hl; cbn [seq ofold].
    - exists l. repeat split; auto. intros i. destruct (Nat.leb_spec s i), (Nat.ltb_spec i (s + 0)); cbn; auto; lia.
    - rewrite asetZ_nat, (aget_ok l s 0%Z) by lia. cbn [obind].
      destruct (IH (S s) (upd l s (f s))) as (l' & E & L & Nn); [rewrite upd_length; lia|].
      exists l'. rewrite E. rewrite upd_length in L. repeat split; auto.
      intros i. rewrite Nn. rewrite nth_upd by lia.
      destruct (Nat.leb_spec (S s) i), (Nat.ltb_spec i (S s + k)), (Nat.leb_spec s i), (Nat.ltb_spec i (s + S k)),
        (Nat.eqb_spec s i); cbn; subst; auto; lia.
  Qed.

  Lemma count_neighbors_ok : exists counts, count_neighbors size uc = Ok counts /\ length counts = N /\
    forall v, v < N -> nth v counts 0%Z = Z.of_nat (length (nbf v)).
  Proof.
    unfold count_neighbors. rewrite all_sites_eq by auto. fold N.
    destruct (ofold_set_seq (fun v => Z.of_nat (length (nbf v))) N 0 (repeat 0%Z N)) as (l' & E & L & Nn);
      [rewrite repeat_length; lia|].
    exists l'. rewrite repeat_length in L. split; [|split; auto].
    - rewrite <- E.
      assert (G : forall l c, (forall v, In v l -> v < N) ->
        ofold (fun counts s => obind (count_one size uc s) (fun c => asetZ counts (s_flat s) c))
           (map (fun k => unflat size (Z.of_nat k)) l) c
        = ofold (fun counts v => asetZ counts (Z.of_nat v) (Z.of_nat (length (nbf v)))) l c).
      { induction l as [|v l IH]; intros c Hl; [reflexivity|]. cbn [map ofold].
        assert (Hv : v < N) by (apply Hl; left; auto).
        destruct (neighbors_ok v Hv) as (u & Eu & _ & Lb). destruct (unflat_range v Hv) as [_ D].
        unfold count_one at 1. destruct (Z.ltb_spec (s_sub (unflat size (Z.of_nat v))) 0); [lia|].
        unfold aget at 1. rewrite Eu. cbn [obind]. rewrite fold_count.
        change (s_flat (unflat size (Z.of_nat v))) with (Z.of_nat v).
        replace (Z.of_nat (length (u_hops u)) - Z.of_nat (length (u_hops u)) +
          Z.of_nat (length (filter (fun h => in_block size (add3 (s_idx (unflat size (Z.of_nat v))) (h_rel h))) (u_hops u))))%Z
          with (Z.of_nat (length (nbf v))).
        2:{ unfold nbf. rewrite map_length, Lb, map_length. lia. }
        destruct (asetZ c (Z.of_nat v) (Z.of_nat (length (nbf v)))); cbn [obind]; auto.
        apply IH. intros; apply Hl; right; auto. }
      apply G. intros v Hv. apply in_seq in Hv. lia.
    - intros v Hv. rewrite Nn. destruct (Nat.ltb_spec v (0 + N)); [reflexivity|lia].
  Qed.

  Lemma remove_dangling_ok : forall m valid, length valid = N ->
    exists valid', remove_dangling size uc m valid = Ok valid' /\ length valid' = N /\
      (forall u, nth u valid' false = true -> nth u valid false = true) /\
      closed_set N nbf m (fun u => nth u valid' false) /\
      (forall T, (forall u, u < N -> T u = true -> nth u valid false = true) -> closed_set N nbf m T ->
         forall u, u < N -> T u = true -> nth u valid' false = true).
  Proof.
    intros m valid LV. destruct count_neighbors_ok as (counts & EC & LC & CN).
    destruct (aremove_greatest N nbf m nbf_range nbf_nodup nbf_sym (seq 0 N) valid counts LV LC CN) as
      (valid' & E & R).
    - intros v. rewrite in_seq. lia.
    - exists valid'. split; [|exact R]. unfold remove_dangling. rewrite EC. cbn [obind].
      rewrite <- E. unfold aremove. f_equal. rewrite all_sites_eq by auto. fold N.
      assert (G : forall l st, (forall v, In v l -> v < N) ->
        ofold (fun st s => obind (agetZ (fst st) (s_flat s)) (fun v =>
              if negb v then clear_neighbors (S (length valid)) size uc m s st else Ok st))
           (map (fun k => unflat size (Z.of_nat k)) l) st
        = ofold (fun st v => obind (aget (fst st) v) (fun b =>
              if negb b then aclear nbf m (S (length valid)) v st else Ok st)) l st).
      { induction l as [|v l IH]; intros st Hl; [reflexivity|]. cbn [map ofold].
        rewrite clear_sim by (apply Hl; left; auto).
        change (s_flat (unflat size (Z.of_nat v))) with (Z.of_nat v). rewrite agetZ_nat.
        destruct (aget (fst st) v) as [b| |]; cbn [obind]; auto.
        destruct (if negb b then _ else _); cbn [obind]; auto. apply IH. intros; apply Hl; right; auto. }
      apply G. intros v Hv. apply in_seq in Hv. lia.
  Qed.
End Inst.
