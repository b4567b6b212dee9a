(* Moments of a local density see only the surroundings of the site. *)
From Verif Require Import Base Scalar Kpm KpmSpec KpmVec KpmCheb BlochProofs.
From Coq Require Import Ring.

(** Sites that [n] hops can reach from [s]. *)
Inductive reach {R : scalar} (N : nat) (H : nat -> nat -> R) (s : nat) : nat -> nat -> Prop :=
| reach_0 : reach N H s 0 s
| reach_same : forall n i, reach N H s n i -> reach N H s (S n) i
| reach_hop : forall n i j, reach N H s n j -> i < N -> H i j <> k0 -> reach N H s (S n) i.

(** The surroundings of [s] up to [r] hops are those of [s'], with [p] as translation. Nothing is
    asked of the hops that lead out of them. *)
Record same_surroundings {R : scalar} (N N' : nat) (H H' : nat -> nat -> R) (s s' r : nat) (p : nat -> nat) : Prop := Surroundings {
  su_s : p s = s';
  su_in : forall i, reach N H s r i -> p i < N';
  su_inj : forall i j, reach N H s r i -> reach N H s r j -> p i = p j -> i = j;
  su_onto : forall i', reach N' H' s' r i' -> exists i, reach N H s r i /\ p i = i';
  su_same : forall i j, reach N H s r i -> reach N H s r j -> H' (p i) (p j) = H i j
}.

Section Reach.
  Variable R : scalar.
  Add Ring Rloc : (k_ring R).
  Local Open Scope k_scope.

  Lemma reach_mono : forall N (H : dmat R) s n m i, n <= m -> reach N H s n i -> reach N H s m i.
  Proof. intros N H s n m i L W. induction L; auto. apply reach_same. auto. Qed.
  Lemma reach_lt : forall N (H : dmat R) s n i, s < N -> reach N H s n i -> i < N.
  Proof. intros N H s n i Hs W. induction W; auto. Qed.
  Lemma zero_dec : forall x : R, {x = k0} + {x <> k0}.
  Proof. intros x. destruct (keqb x k0) eqn:E; [left; apply keqb_eq; exact E|right; intros F; apply keqb_eq in F; congruence]. Qed.
  Lemma reach_dec : forall N (H : dmat R) s, s < N -> forall n i, {reach N H s n i} + {~ reach N H s n i}.
  Proof.
    intros N H s Hs. induction n as [|n IH]; intros i.
    - destruct (Nat.eq_dec i s) as [->|D]; [left; constructor|right; intros W; inversion W; auto].
    - destruct (IH i) as [W|D]; [left; apply reach_same; auto|].
      destruct (le_lt_dec N i) as [L|L]; [right; intros W; inversion W; subst; [auto|lia]|].
      destruct (Exists_dec (fun j => reach N H s n j /\ H i j <> k0) (seq 0 N)) as [E|E].
      + intros j. destruct (IH j) as [W|D']; [|right; tauto]. destruct (zero_dec (H i j)) as [Z|Z]; [right; tauto|left; tauto].
      + left. apply Exists_exists in E. destruct E as (j & _ & W & Z). apply reach_hop with (j := j); auto.
      + right. intros W. inversion W as [|n0 i0 W0|n0 i0 j W0 Hi0 Hne]; subst; [auto|].
        apply E, Exists_exists. exists j. split; [apply in_seq; pose proof (reach_lt N H s n j Hs W0); lia|auto].
  Qed.

  Lemma su_level : forall N N' (H H' : dmat R) s s' r p, s < N -> same_surroundings N N' H H' s s' r p ->
    forall n i, n <= r -> reach N H s r i -> (reach N H s n i <-> reach N' H' s' n (p i)).
  Proof.
    intros N N' H H' s s' r p Hs [Es Hin Hinj Honto Hsame]. induction n as [|n IH]; intros i Hn Wi.
    - split; intros W; inversion W as [E| |]; subst.
      + constructor.
      + assert (i = s) as ->; [apply Hinj; auto|constructor]. apply reach_mono with (n := 0); [lia|constructor].
    - split; intros W; inversion W as [|n0 i0 W0|n0 i0 j W0 Hi0 Hne]; subst.
      + apply reach_same. apply IH; auto. lia.
      + assert (Wj : reach N H s r j) by (apply reach_mono with (n := n); [lia|auto]).
        apply reach_hop with (j := p j); [apply IH; auto; lia|auto|]. rewrite Hsame by auto. auto.
      + apply reach_same. apply IH; auto. lia.
      + assert (Wj : reach N' H' (p s) r j) by (apply reach_mono with (n := n); [lia|auto]).
        destruct (Honto j Wj) as (k & Wk & <-). apply reach_hop with (j := k); [apply IH; auto; lia| |].
        * eapply reach_lt; eauto.
        * rewrite <- Hsame by auto. auto.
  Qed.
End Reach.

Section Local.
  Variable R : scalar.
  Add Ring Rloc2 : (k_ring R).
  Local Open Scope k_scope.
  Variables N N' : nat.
  Variables H H' X X' : dmat R.
  Variables s s' r : nat.
  Variable p : nat -> nat.
  Hypothesis Hs : s < N.
  Hypothesis Hs' : s' < N'.
  Hypothesis SU : same_surroundings N N' H H' s s' r p.
  (** The matrices of the recursion: no other hops than those of [H] and [H'], and the same within. *)
  Hypothesis HX : forall i j, i <> j -> X i j <> k0 -> H i j <> k0.
  Hypothesis HX' : forall i j, i <> j -> X' i j <> k0 -> H' i j <> k0.
  Hypothesis XX : forall i j, reach N H s r i -> reach N H s r j -> X' (p i) (p j) = X i j.

  Local Notation t := (cv R N X (fun i => delta i s)).
  Local Notation t' := (cv R N' X' (fun i => delta i s')).

  Lemma step_zero : forall M (G Y : dmat R) c, c < M -> (forall i j, i <> j -> Y i j <> k0 -> G i j <> k0) ->
    forall n v i, i < M -> (forall j, j < M -> ~ reach M G c n j -> v j = k0) -> ~ reach M G c (S n) i -> ap R M Y v i = k0.
  Proof.
    intros M G Y c Hc HY n v i Hi Hv Hn. apply ksum_0. intros j Hj. apply in_seq in Hj.
    destruct (reach_dec R M G c Hc n j) as [W|D]; [|rewrite Hv by (auto; lia); ring].
    destruct (zero_dec R (Y i j)) as [->|Z]; [ring|]. exfalso. apply Hn.
    destruct (Nat.eq_dec i j) as [->|D]; [apply reach_same; auto|]. apply reach_hop with (j := j); auto.
  Qed.
  Lemma cv_zero : forall M (G Y : dmat R) c, c < M -> (forall i j, i <> j -> Y i j <> k0 -> G i j <> k0) ->
    forall n i, i < M -> ~ reach M G c n i -> cv R M Y (fun i => delta i c) n i = k0.
  Proof.
    intros M G Y c Hc HY.
    assert (G0 : forall n, (forall i, i < M -> ~ reach M G c n i -> cv R M Y (fun i => delta i c) n i = k0)
                        /\ (forall i, i < M -> ~ reach M G c (S n) i -> cv R M Y (fun i => delta i c) (S n) i = k0)).
    { induction n as [|n (I0 & I1)].
      - assert (A : forall i, i < M -> ~ reach M G c 0 i -> cv R M Y (fun i => delta i c) 0 i = k0).
        { intros i _ D. cbn. unfold delta. destruct (Nat.eqb_spec i c) as [->|]; [exfalso; apply D; constructor|reflexivity]. }
        split; [exact A|]. intros i Hi D. apply (step_zero M G Y c Hc HY 0 (fun i => delta i c) i Hi A D).
      - split; [exact I1|]. intros i Hi D. rewrite cv_SS. rewrite (step_zero M G Y c Hc HY (S n) _ i Hi I1 D).
        rewrite I0; [ring|auto|]. intros W. apply D. apply reach_same, reach_same. auto. }
    intros n. apply G0.
  Qed.

  Lemma transfer : forall g g' : nat -> R, (forall i, i < N -> ~ reach N H s r i -> g i = k0) -> (forall i, i < N' -> ~ reach N' H' s' r i -> g' i = k0) ->
    (forall i, reach N H s r i -> g' (p i) = g i) -> ksum g' (seq 0 N') = ksum g (seq 0 N).
  Proof using Hs Hs' SU.
    intros g g' Z Z' E. set (inside := fun i => if reach_dec R N H s Hs r i then true else false). set (B := filter inside (seq 0 N)).
    assert (HB : forall i, In i B <-> reach N H s r i).
    { intros i. unfold B. rewrite filter_In, in_seq. unfold inside. destruct (reach_dec R N H s Hs r i) as [W|D]; [|split; [intros (_ & F); discriminate|contradiction]].
      split; auto. intros _. split; auto. split; [lia|]. apply (reach_lt R N H s r i Hs W). }
    assert (NB : NoDup B) by (apply NoDup_filter, seq_NoDup).
    transitivity (ksum g' (map p B)).
    - apply (ksum_support R Nat.eq_dec); [apply seq_NoDup| | |].
      + clear - NB HB SU. assert (A : forall l, NoDup l -> (forall i, In i l -> reach N H s r i) -> NoDup (map p l)).
        { induction l as [|a l IH]; intros ND W; [constructor|]. inversion ND; subst. cbn [map]. constructor; [|apply IH; auto; intros; apply W; right; auto].
          intros F. apply in_map_iff in F. destruct F as (b & Eb & Hb). apply (su_inj _ _ _ _ _ _ _ _ SU) in Eb; [subst; contradiction|apply W; right; auto|apply W; left; auto]. }
        apply A; auto. intros i Hi. apply HB; auto.
      + intros i Hi D. apply in_seq in Hi. apply Z'; [lia|]. intros W. destruct (su_onto _ _ _ _ _ _ _ _ SU i W) as (k & Wk & <-). apply D. apply in_map, HB, Wk.
      + intros i Hi D. apply in_map_iff in Hi. destruct Hi as (k & <- & Hk). exfalso. apply D, in_seq. pose proof (su_in _ _ _ _ _ _ _ _ SU k (proj1 (HB k) Hk)). lia.
    - rewrite ksum_map. transitivity (ksum g B); [apply ksum_ext; intros i Hi; apply E, HB, Hi|].
      apply (ksum_support R Nat.eq_dec); [exact NB|apply seq_NoDup| |].
      + intros i Hi D. exfalso. apply D, in_seq. pose proof (reach_lt R N H s r i Hs (proj1 (HB i) Hi)). lia.
      + intros i Hi D. apply in_seq in Hi. apply Z; [lia|]. intros W. apply D, HB, W.
  Qed.

  (** The recursion vectors agree in the surroundings. *)
  Lemma cv_local : forall n, n <= S r -> forall i, reach N H s r i -> t' n (p i) = t n i.
  Proof using Hs Hs' SU HX HX' XX.
    assert (St : forall n, n <= r -> (forall i, reach N H s r i -> t' n (p i) = t n i) -> forall i, reach N H s r i -> ap R N' X' (t' n) (p i) = ap R N X (t n) i).
    { intros n Hn I i Wi. unfold ap. apply transfer.
      - intros j Hj D. rewrite (cv_zero N H X s Hs HX n j Hj); [ring|]. intros W. apply D. apply (reach_mono R N H s n r j Hn W).
      - intros j Hj D. rewrite (cv_zero N' H' X' s' Hs' HX' n j Hj); [ring|]. intros W. apply D. apply (reach_mono R N' H' s' n r j Hn W).
      - intros j Wj. rewrite XX, I by auto. reflexivity. }
    assert (G : forall n, (n <= S r -> forall i, reach N H s r i -> t' n (p i) = t n i) /\ (S n <= S r -> forall i, reach N H s r i -> t' (S n) (p i) = t (S n) i)).
    { assert (A : forall i, reach N H s r i -> t' 0 (p i) = t 0 i).
      { intros i Wi. cbn. unfold delta. destruct (Nat.eqb_spec i s) as [->|D]; [rewrite (su_s _ _ _ _ _ _ _ _ SU), Nat.eqb_refl; reflexivity|].
        destruct (Nat.eqb_spec (p i) s') as [F|]; [|reflexivity]. exfalso. apply D. apply (su_inj _ _ _ _ _ _ _ _ SU); auto; [apply reach_mono with (n := 0); [lia|constructor]|].
        rewrite F. symmetry. apply (su_s _ _ _ _ _ _ _ _ SU). }
      induction n as [|n (I0 & I1)]; [split; intros Hn|split; [exact I1|intros Hn]]; auto.
      - intros i Wi. apply (St 0); auto. lia.
      - intros i Wi. rewrite !cv_SS. rewrite (St (S n)), I0 by (auto; try apply I1; lia). reflexivity. }
    intros n. apply G.
  Qed.
  Lemma inner_local : forall n m, n <= r -> m <= S r -> inner R N' (t' n) (t' m) = inner R N (t n) (t m).
  Proof using Hs Hs' SU HX HX' XX.
    intros n m Hn Hm. unfold inner. apply transfer.
    - intros j Hj D. rewrite (cv_zero N H X s Hs HX n j Hj); [rewrite kconj_0; ring|]. intros W. apply D. apply (reach_mono R N H s n r j Hn W).
    - intros j Hj D. rewrite (cv_zero N' H' X' s' Hs' HX' n j Hj); [rewrite kconj_0; ring|]. intros W. apply D. apply (reach_mono R N' H' s' n r j Hn W).
    - intros j Wj. rewrite !cv_local by (auto; lia). reflexivity.
  Qed.
  Hypothesis KX : hermitian N X.
  Hypothesis KX' : hermitian N' X'.
  Lemma even_moment : forall n, n <= r -> inner R N' (t' 0) (t' (n + n)) = inner R N (t 0) (t (n + n)).
  Proof using Hs Hs' SU HX HX' XX KX KX'.
    intros n Hn. pose proof (product R N X KX (fun i => delta i s) n n (le_n n)) as P. pose proof (product R N' X' KX' (fun i => delta i s') n n (le_n n)) as P'.
    rewrite Nat.sub_diag in P, P'. rewrite (inner_local n n) in P' by lia. rewrite P, (inner_local 0 0) in P' by lia.
    transitivity ((inner R N' (t' 0) (t' (n + n)) + inner R N (t 0) (t 0)) - inner R N (t 0) (t 0)); [ring|]. rewrite <- P'. ring.
  Qed.
  Lemma odd_moment : forall n, n <= r -> inner R N' (t' 0) (t' (n + S n)) = inner R N (t 0) (t (n + S n)).
  Proof using Hs Hs' SU HX HX' XX KX KX'.
    intros n Hn. pose proof (product R N X KX (fun i => delta i s) n (S n) ltac:(lia)) as P. pose proof (product R N' X' KX' (fun i => delta i s') n (S n) ltac:(lia)) as P'.
    replace (S n - n)%nat with 1%nat in P, P' by lia. rewrite (inner_local n (S n)) in P' by lia. rewrite P, (inner_local 0 1) in P' by lia.
    transitivity ((inner R N' (t' 0) (t' (n + S n)) + inner R N (t 0) (t 1)) - inner R N (t 0) (t 1)); [ring|]. rewrite <- P'. ring.
  Qed.
  Lemma moment_local : forall n, n <= S (r + r) -> inner R N' (fun i => delta i s') (t' n) = inner R N (fun i => delta i s) (t n).
  Proof using Hs Hs' SU HX HX' XX KX KX'.
    intros n Hn. destruct (Nat.Even_or_Odd n) as [(k & ->)|(k & ->)].
    - replace (2 * k)%nat with (k + k)%nat by lia. apply even_moment. lia.
    - replace (2 * k + 1)%nat with (k + S k)%nat by lia. apply odd_moment. lia.
  Qed.
End Local.
