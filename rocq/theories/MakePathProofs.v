(* The loop of [make_path] as a recursion over the points. *)
From Verif Require Import Base RSum MakePath.
From Coq Require Import Reals Lra.
Local Open Scope R_scope.

Definition cnt (step : R) (a b : point) : nat := Z.to_nat (Int_part (norm (map (fun t => fst t - snd t) (combine b a)) / step)).
Fixpoint rowsof (step : R) (p : point) (rest : list point) : list point :=
  match rest with [] => [] | q :: t => samples p q (cnt step p q) ++ rowsof step q t end.
Fixpoint idxof (step : R) (off : nat) (p : point) (rest : list point) : list nat :=
  match rest with [] => [] | q :: t => (off + cnt step p q)%nat :: idxof step (off + cnt step p q) q t end.

Lemma Int_part_nonneg : forall x, 0 <= x -> (0 <= Int_part x)%Z.
Proof.
  intros x H. destruct (base_Int_part x) as [_ B]. assert (-1 < IZR (Int_part x)) by lra. apply (lt_IZR (-1)) in H0. lia.
Qed.
Lemma norm_nonneg : forall v, 0 <= norm v. Proof. intros. unfold norm. apply sqrt_pos. Qed.

Section Path.
  Variables (step : R) (d : nat).
  Hypothesis Hs : 0 < step.

  Lemma segment_eq : forall a b, length a = d -> length b = d -> segment step a b = Ok (cnt step a b, samples a b (cnt step a b), d).
  Proof.
    intros a b La Lb. unfold segment, minus. rewrite La, Lb, Nat.eqb_refl. cbn [obind]. unfold floor_div. destruct (Req_EM_T step 0); [lra|]. cbn [obind].
    assert (P : (0 <= Int_part (norm (map (fun t => (fst t - snd t)%R) (combine b a)) / step))%Z).
    { apply Int_part_nonneg. apply Rmult_le_pos; [apply norm_nonneg|]. left. apply Rinv_0_lt_compat. exact Hs. }
    destruct (Z.ltb_spec (Int_part (norm (map (fun t => (fst t - snd t)%R) (combine b a)) / step)) 0); [lia|]. rewrite Nat.min_id. reflexivity.
  Qed.
  Lemma samples_length : forall a b n, length (samples a b n) = n.
  Proof. intros. unfold samples. rewrite map_length, seq_length. reflexivity. Qed.

  Definition loop_step := (fun (st : list point * list nat * list nat) (ab : point * point) =>
             obind (segment step (fst ab) (snd ab)) (fun r =>
             let '(rows, idx, ws) := st in let '(n, p, w) := r in
             Ok (rows ++ p, idx ++ [lasts idx + n]%nat, ws ++ [w]))).
  Lemma loop_eq : forall rest p rows idx ws, Forall (fun q => length q = d) (p :: rest) ->
    ofold loop_step (combine (removelast (p :: rest)) (tl (p :: rest))) (rows, idx, ws)
    = Ok (rows ++ rowsof step p rest, idx ++ idxof step (lasts idx) p rest, ws ++ repeat d (length rest)).
  Proof.
    induction rest as [|q rest IH]; intros p rows idx ws H.
    - cbn. rewrite !app_nil_r. reflexivity.
    - pose proof (Forall_inv H) as Hp. pose proof (Forall_inv_tail H) as Hq. pose proof (Forall_inv Hq) as Hq0. cbn beta in Hp, Hq0.
      change (removelast (p :: q :: rest)) with (p :: removelast (q :: rest)). change (tl (p :: q :: rest)) with (q :: rest).
      change (combine (p :: removelast (q :: rest)) (q :: rest)) with ((p, q) :: combine (removelast (q :: rest)) (tl (q :: rest))).
      cbn [ofold]. unfold loop_step at 1. cbn [fst snd]. rewrite segment_eq by congruence. cbn [obind]. rewrite IH by exact Hq.
      cbn [rowsof idxof length repeat]. rewrite <- !app_assoc. cbn [app]. unfold lasts at 2. rewrite last_last. reflexivity.
  Qed.

  Lemma make_path_eq : forall k0 k1 ks, Forall (fun q => length q = d) (k0 :: k1 :: ks) ->
    make_path step k0 k1 ks = Ok (rowsof step k0 (k1 :: ks) ++ [last (k1 :: ks) []], 0%nat :: idxof step 0 k0 (k1 :: ks)).
  Proof.
    intros k0 k1 ks H. unfold make_path. cbn [firstn forallb]. rewrite Nat.eqb_refl. cbn [andb negb]. fold loop_step. rewrite loop_eq by exact H. cbn [obind].
    assert (L : length (last (k0 :: k1 :: ks) []) = d).
    { rewrite Forall_forall in H. apply H. assert (G : forall (l : list point) x, In (last (x :: l) []) (x :: l)) by (induction l as [|y l IHl]; intros x; [left; reflexivity|right; apply IHl]). apply G. }
    change (last (k0 :: k1 :: ks) []) with (last (k1 :: ks) ([] : point)) in *. rewrite L.
    match goal with |- context [forallb ?f ?l] => replace (forallb f l) with true end; [reflexivity|].
    symmetry. apply forallb_forall. intros x Hx. apply repeat_spec in Hx. subst. apply Nat.eqb_refl.
  Qed.

  Lemma seg_at : forall rest p off j a b, nth_error (p :: rest) j = Some a -> nth_error (p :: rest) (S j) = Some b ->
    exists o, nth_error (off :: idxof step off p rest) j = Some (off + o)%nat /\
              nth_error (off :: idxof step off p rest) (S j) = Some (off + o + cnt step a b)%nat /\
              forall t, (t < cnt step a b)%nat -> nth_error (rowsof step p rest) (o + t) = nth_error (samples a b (cnt step a b)) t.
  Proof.
    induction rest as [|q rest IH]; intros p off j a b Ha Hb; [destruct j; discriminate|].
    destruct j as [|j].
    - cbn in Ha, Hb. injection Ha as ->. injection Hb as ->. exists O. rewrite Nat.add_0_r. cbn. split; [reflexivity|]. split; [reflexivity|].
      intros t Ht. rewrite nth_error_app1 by (rewrite samples_length; exact Ht). reflexivity.
    - cbn [nth_error] in Ha. change (nth_error (p :: q :: rest) (S (S j))) with (nth_error (q :: rest) (S j)) in Hb.
      destruct (IH q (off + cnt step p q)%nat j a b Ha Hb) as (o & E1 & E2 & E3). exists (cnt step p q + o)%nat. rewrite Nat.add_assoc. split; [exact E1|]. split; [exact E2|].
      intros t Ht. cbn [rowsof]. rewrite nth_error_app2 by (rewrite samples_length; lia). rewrite samples_length.
      replace (cnt step p q + o + t - cnt step p q)%nat with (o + t)%nat by lia. apply E3. exact Ht.
  Qed.
  Lemma rows_length : forall rest p off, (off + length (rowsof step p rest))%nat = last (off :: idxof step off p rest) 0%nat.
  Proof.
    induction rest as [|q rest IH]; intros p off; [cbn; lia|]. cbn [rowsof idxof]. rewrite app_length, samples_length, Nat.add_assoc, IH. reflexivity.
  Qed.
  Lemma idx_length : forall rest p off, length (idxof step off p rest) = length rest.
  Proof. induction rest as [|q rest IH]; intros p off; cbn; auto. Qed.
End Path.
