(* Proofs about the progress bar. *)
From Verif Require Import Base ProgressBar ProgressSpec.

Lemma merged_app : forall a b c a' b' c', merged a b c -> merged a' b' c' -> merged (a ++ a') (b ++ b') (c ++ c').
Proof. intros a b c a' b' c' H H'. induction H; cbn; [exact H'|constructor; auto|constructor; auto]. Qed.
Lemma merged_seq : forall o e, merged o e (o ++ e).
Proof. induction o as [|x o IH]; intros e; cbn; [|constructor; auto]. induction e; cbn; constructor; auto. Qed.
Lemma merged_left : forall a c, merged a [] c -> c = a.
Proof. intros a c H. remember [] as b eqn:E. induction H; [reflexivity|f_equal; auto|discriminate]. Qed.

(** ** Terminal *)
Lemma skip_skip : forall {A} a b (l : list A), skipn a (skipn b l) = skipn (b + a) l.
Proof. intros A a b. induction b as [|b IH]; intros l; [reflexivity|]. destruct l; [rewrite !skipn_nil; reflexivity|]. cbn. apply IH. Qed.
Lemma draw_plain : forall t done cur col, plain t -> col <= length cur ->
  fold_left draw t (done, cur, col) = (done, firstn col cur ++ t ++ skipn (col + length t) cur, col + length t).
Proof.
  induction t as [|c t IH]; intros done cur col (P1 & P2) L.
  - cbn [fold_left app length]. rewrite Nat.add_0_r, firstn_skipn. reflexivity.
  - cbn [fold_left]. 
    assert (N1 : Ascii.eqb c nl = false) by (apply Ascii.eqb_neq; intros ->; apply P1; left; reflexivity).
    assert (N2 : Ascii.eqb c cr = false) by (apply Ascii.eqb_neq; intros ->; apply P2; left; reflexivity).
    assert (D : draw (done, cur, col) c = (done, firstn col cur ++ [c] ++ skipn (S col) cur, S col)) by (unfold draw; rewrite N1, N2; reflexivity).
    rewrite D. rewrite IH; [|split; intros F; [apply P1|apply P2]; right; exact F|].
    + f_equal; [f_equal|cbn [length]; lia].
      assert (LE : length (firstn col cur ++ [c]) = S col) by (rewrite app_length, firstn_length; cbn; lia).
      rewrite (app_assoc (firstn col cur)), firstn_app, LE, Nat.sub_diag, firstn_O, app_nil_r, <- LE, firstn_all, LE, <- app_assoc. cbn [app length]. do 2 f_equal. f_equal.
      rewrite skipn_app, skipn_all2 by (rewrite LE; lia). cbn [app]. rewrite skip_skip, LE. f_equal. lia.
    + rewrite !app_length, firstn_length, skipn_length. cbn [length]. lia.
Qed.
Lemma blanks_plain : forall n, plain (blanks n).
Proof. intros n. split; intros F; apply repeat_spec in F; discriminate. Qed.
Lemma rstrip_blanks : forall t, (forall c, In c t -> c = blank) -> rstrip t = [].
Proof. induction t as [|c t IH]; intros H; [reflexivity|]. cbn. rewrite IH by (intros; apply H; right; auto). rewrite (H c) by (left; auto). reflexivity. Qed.
Lemma rstrip_app : forall l t, (forall c, In c t -> c = blank) -> rstrip (l ++ t) = rstrip l.
Proof. induction l as [|c l IH]; intros t H; [apply rstrip_blanks; exact H|]. cbn. rewrite IH by exact H. reflexivity. Qed.
Lemma in_skipn : forall {A} n (l : list A) x, In x (skipn n l) -> In x l.
Proof. induction n as [|n IH]; intros [|a l] x H; auto. right. apply IH. exact H. Qed.

(** Whole lines on a blank line *)
Lemma draw_lines : forall ls done cur, Forall plain ls -> (forall c, In c cur -> c = blank) ->
  exists done' cur', fold_left draw (unlines ls) (done, cur, 0) = (done', cur', 0) /\ (forall c, In c cur' -> c = blank) /\ length cur' <= length cur /\
    map rstrip done' = map rstrip (done ++ ls).
Proof.
  induction ls as [|l ls IH]; intros done cur HP HB.
  - exists done, cur. rewrite app_nil_r. cbn. auto.
  - inversion HP as [|? ? P1 P2]; subst. unfold unlines. cbn [map concat]. fold (unlines ls). rewrite !fold_left_app, draw_plain by (auto; lia).
    cbn [firstn app fold_left]. unfold draw at 2. change (Ascii.eqb nl nl) with true. cbv iota.
    destruct (IH (done ++ [l ++ skipn (0 + length l) cur]) [] P2 (fun c F => match F with end)) as (d & c' & E & B & L & M).
    exists d, c'. split; [exact E|]. split; [exact B|]. split; [cbn in L; lia|]. rewrite M, <- app_assoc. rewrite !map_app. cbn [app map]. rewrite rstrip_app; [reflexivity|].
    intros c F. apply HB. eapply in_skipn. exact F.
Qed.

(** ** The run *)
Lemma unlines_app : forall a b, unlines (a ++ b) = unlines a ++ unlines b.
Proof. intros a b. unfold unlines. rewrite map_app, concat_app. reflexivity. Qed.
Lemma whole_app : forall a b, whole_lines a -> whole_lines b -> whole_lines (a ++ b).
Proof.
  intros a b (la & Pa & ->) (lb & Pb & ->). exists (la ++ lb). split; [apply Forall_app; auto|]. symmetry. apply unlines_app.
Qed.
Lemma whole_nil : whole_lines [].
Proof. exists []. split; [constructor|reflexivity]. Qed.
Lemma nth_upd_same : forall {A} (l : list A) i x d, i < length l -> nth i (upd l i x) d = x.
Proof. induction l as [|a l IH]; intros [|i] x d H; cbn in *; try lia; auto. apply IH. lia. Qed.
Lemma nth_upd_other : forall {A} (l : list A) i j x d, i <> j -> nth j (upd l i x) d = nth j l d.
Proof. induction l as [|a l IH]; intros [|i] [|j] x d H; cbn; auto; try lia. Qed.
Lemma upd_len : forall {A} (l : list A) i x, length (upd l i x) = length l.
Proof. induction l as [|a l IH]; intros [|i] x; cbn; auto. Qed.
(** Writing at the end, and over the first line *)
Lemma write_end : forall t f, f_pos f = length (f_text f) -> f_write t f = File (f_text f ++ t) (length (f_text f ++ t)).
Proof.
  intros t [x p] E. cbn in E. subst p. unfold f_write. cbn [f_pos f_text]. rewrite firstn_all, skipn_all2, app_nil_r, app_length by lia. reflexivity.
Qed.
Lemma write_first : forall t l r p, length t = length l -> f_seek_end (f_write t (f_seek0 (File (l ++ r) p))) = File (t ++ r) (length (t ++ r)).
Proof.
  intros t l r p E. unfold f_seek0, f_write, f_seek_end. cbn [f_pos f_text firstn app Nat.add]. rewrite E, skipn_app, skipn_all, Nat.sub_diag. reflexivity.
Qed.

Section Run.
  Variables top width : nat.
  Variable ws : list widget.
  Variables hs hf : bool.
  Variable ok : Prop.
  Hypothesis F : fits top width ws.
  Local Notation refresh := (refresh width ws hs hf).

  (** The part about the files: of what was said, [P] is written. *)
  Definition filed (st : state) (P : text) : Prop :=
    hf = true -> exists L, length L = width /\ w_file st = File (L ++ nl :: P) (length (L ++ nl :: P)).
  Definition displayed (st : state) (P : text) : Prop :=
    hs = true -> ok -> exists ls done cur col, Forall plain ls /\ P = unlines ls /\ drawn (w_term st) = (done, cur, col) /\ length cur <= width /\ map rstrip done = map rstrip ls.
  Record taken (st : state) (O E P : text) : Prop := Taken {
    t_bufs : exists o e O' E', w_out st = Buffer o /\ w_err st = Buffer e /\ o <> e /\ o < length (w_heap st) /\ e < length (w_heap st) /\
      O = O' ++ nth o (w_heap st) [] /\ E = E' ++ nth e (w_heap st) [] /\ merged O' E' P /\ (ok -> whole_lines (nth o (w_heap st) []) /\ whole_lines (nth e (w_heap st) []));
    t_run : p_running st = true;
    t_value : p_value st <= top;
    t_file : filed st P;
    t_disp : displayed st P
  }.

  Lemma say_taken : forall (err : bool) t st O E P, (ok -> whole_lines t) -> taken st O E P ->
    taken (say_to (if err then w_err st else w_out st) t st) (if err then O else O ++ t) (if err then E ++ t else E) P.
  Proof using Type.
    intros err t st O E P Hw [(o & e & O' & E' & Ho & He & Hne & Lo & Le & EO & EE & HM & HW) Hr Hv Hf Hd].
    destruct err; [rewrite He|rewrite Ho]; cbn [say_to]; split; try assumption; exists o, e, O', E'; cbn [w_out w_err w_heap set_heap];
      rewrite upd_len, nth_upd_same, nth_upd_other by auto; repeat split; auto; try (subst; rewrite <- app_assoc; reflexivity); try (apply HW; assumption); apply whole_app; auto; apply HW; assumption.
  Qed.

  Lemma refresh_taken : forall st O E P, taken st O E P -> exists st' P' t,
    refresh st = (st', false) /\ taken st' O E P' /\ merged O E P' /\
    make_line width ws (p_value st) (p_last st - p_start st)%Z = Ok t /\ (hf = true -> f_text (w_file st') = t ++ nl :: P') /\
    (hs = true -> ok -> exists ls done, Forall plain ls /\ P' = unlines ls /\ drawn (w_term st') = (done, t, length t) /\ map rstrip done = map rstrip ls) /\
    p_old_out st' = p_old_out st /\ p_old_err st' = p_old_err st /\ p_value st' = p_value st /\ p_start st' = p_start st /\ p_last st' = p_last st.
  Proof using F.
    intros st O E P [(o & e & O' & E' & Ho & He & Hne & Lo & Le & EO & EE & HM & HW) Hr Hv Hf Hd].
    destruct (F (p_value st) (p_last st - p_start st)%Z Hv) as (t & Et & Lt & Pt).
    set (a := nth o (w_heap st) []) in *. set (b := nth e (w_heap st) []) in *.
    assert (M' : merged O E (P ++ a ++ b)) by (subst O E; apply merged_app; [exact HM|apply merged_seq]).
    set (n := length (w_heap st)).
    set (st1 := State (Buffer n) (Buffer (S n)) (w_heap st ++ [[]; []]) (if hs then w_term st ++ ([cr] ++ blanks width ++ [cr]) ++ a ++ b ++ cr :: t else w_term st)
      (if hf then f_seek_end (f_write (t ++ [nl]) (f_seek0 (f_write b (f_write a (w_file st))))) else w_file st) (p_old_out st) (p_old_err st) (p_value st) (p_running st) (p_start st) (p_last st)).
    exists st1, (P ++ a ++ b), t.
    assert (ER : refresh st = (st1, false)).
    { unfold ProgressBar.refresh, clear_pbar, if_stream. unfold st1. clear - Ho He Et. destruct st as [so se hp tm fl oo oe v r s l]. cbn [w_out w_err p_value p_last p_start] in *. subst so se.
      destruct hs, hf; cbn -[blanks app nth]; rewrite ?Et; cbv beta iota delta [write write_pbar if_file if_stream on_file to_term set_err set_out set_heap w_out w_err w_heap w_term w_file p_old_out p_old_err p_value p_running p_start p_last orb];
        rewrite <- ?app_assoc; reflexivity. }
    assert (FF : hf = true -> w_file st1 = File (t ++ nl :: P ++ a ++ b) (length (t ++ nl :: P ++ a ++ b))).
    { intros H. destruct (Hf H) as (L & LL & EL). cbn [w_file st1]. rewrite H, EL. rewrite (write_end a) by reflexivity. cbn [f_text]. rewrite (write_end b) by reflexivity. cbn [f_text].
      replace (((L ++ nl :: P) ++ a) ++ b) with ((L ++ [nl]) ++ P ++ a ++ b) by (rewrite <- !app_assoc; reflexivity).
      rewrite write_first by (rewrite !app_length; lia). rewrite <- app_assoc. reflexivity. }
    assert (DD : hs = true -> ok -> exists ls done, Forall plain ls /\ P ++ a ++ b = unlines ls /\ drawn (w_term st1) = (done, t, length t) /\ map rstrip done = map rstrip ls).
    { intros H K. destruct (Hd H K) as (ls & done & cur & col & Pl & EP & ED & LC & EM). destruct (HW K) as ((la & Pa & Ea) & (lb & Pb & Eb)).
      exists (ls ++ la ++ lb). cbn [w_term st1]. rewrite H. unfold drawn in *. rewrite fold_left_app, ED.
      assert (E1 : fold_left draw ([cr] ++ blanks width ++ [cr]) (done, cur, col) = (done, blanks width, 0)).
      { rewrite !fold_left_app. cbn [fold_left]. change (draw (done, cur, col) cr) with (done, cur, 0). rewrite draw_plain by (apply blanks_plain || lia).
        cbn [firstn app Nat.add]. unfold blanks at 2. rewrite repeat_length, skipn_all2, app_nil_r by lia. reflexivity. }
      rewrite fold_left_app, E1, fold_left_app.
      assert (EB : forall c, In c (blanks width) -> c = blank) by (intros c Hc; apply repeat_spec in Hc; exact Hc).
      destruct (draw_lines la done (blanks width) Pa EB) as (d1 & c1 & D1 & B1 & L1 & M1). rewrite <- Ea in D1.
      match goal with |- context [fold_left draw a ?X] => replace (fold_left draw a X) with (d1, c1, 0) by (symmetry; exact D1) end.
      destruct (draw_lines lb d1 c1 Pb B1) as (d2 & c2 & D2 & B2 & L2 & M2). rewrite <- Eb in D2. rewrite fold_left_app.
      match goal with |- context [fold_left draw b ?X] => replace (fold_left draw b X) with (d2, c2, 0) by (symmetry; exact D2) end.
      unfold blanks in L1. rewrite repeat_length in L1. exists d2. split; [apply Forall_app; split; auto; apply Forall_app; auto|].
      split; [rewrite EP, Ea, Eb, !unlines_app; reflexivity|]. split.
      - cbn [fold_left]. change (draw (d2, c2, 0) cr) with (d2, c2, 0). rewrite draw_plain by (auto; lia). cbn [firstn app Nat.add]. rewrite skipn_all2, app_nil_r by lia. reflexivity.
      - rewrite M2, map_app, M1, !map_app, EM, app_assoc. reflexivity. }
    split; [exact ER|]. split; [|split; [exact M'|split; [exact Et|split; [intros H; rewrite FF by exact H; reflexivity|split; [exact DD|repeat split]]]]].
    split.
    - exists n, (S n), O, E. cbn [w_out w_err w_heap st1]. assert (LN : length (w_heap st ++ [[]; []]) = S (S n)) by (rewrite app_length; cbn; unfold n; lia).
      assert (N0 : nth n (w_heap st ++ [[]; []]) [] = []) by (unfold n; rewrite app_nth2, Nat.sub_diag by lia; reflexivity).
      assert (N1 : nth (S n) (w_heap st ++ [[]; []]) [] = []) by (unfold n; rewrite app_nth2 by lia; replace (S (length (w_heap st)) - length (w_heap st)) with 1 by lia; reflexivity).
      rewrite N0, N1, LN, !app_nil_r. repeat split; auto; try lia; apply whole_nil.
    - exact Hr.
    - exact Hv.
    - intros H. exists t. split; [exact Lt|]. exact (FF H).
    - intros H K. destruct (DD H K) as (ls & done & Q1 & Q2 & Q3 & Q4). exists ls, done, t, (length t). repeat split; auto. lia.
  Qed.

  Lemma start_taken : forall now st, (hf = true -> w_file st = File [] 0) -> (hs = true -> ok -> drawn (w_term st) = ([], [], 0)) ->
    exists st' P t, start width ws hs hf now st = (st', false) /\ taken st' [] [] P /\ merged [] [] P /\ make_line width ws 0 0 = Ok t /\
      p_old_out st' = w_out st /\ p_old_err st' = w_err st /\ p_value st' = 0.
  Proof using F.
    intros now st HF0 HD0. unfold start. set (st0 := set_times _ _ _).
    assert (T : taken st0 [] [] []).
    { assert (E0 : st0 = State (Buffer (length (w_heap st))) (Buffer (S (length (w_heap st)))) (w_heap st ++ [[]; []]) (w_term st)
        (if hf then f_seek_end (f_write (blanks width ++ [nl]) (f_seek0 (w_file st))) else w_file st) (w_out st) (w_err st) 0 true now now).
      { unfold st0, outputs_start, if_file. destruct hf; reflexivity. }
      rewrite E0. split.
      - exists (length (w_heap st)), (S (length (w_heap st))), [], []. cbn [w_out w_err w_heap].
        assert (LN : length (w_heap st ++ [[]; []]) = S (S (length (w_heap st)))) by (rewrite app_length; cbn; lia).
        rewrite LN, !app_nth2, Nat.sub_diag by lia. replace (S (length (w_heap st)) - length (w_heap st)) with 1 by lia. cbn [nth].
        repeat split; auto; try lia; try constructor; apply whole_nil.
      - reflexivity.
      - apply Nat.le_0_l.
      - intros H. exists (blanks width). split; [apply repeat_length|]. cbn [w_file]. rewrite H, (HF0 H). 
        replace (blanks width ++ nl :: []) with ((blanks width ++ [nl]) ++ []) by (rewrite app_nil_r; reflexivity).
        unfold f_seek0, f_write, f_seek_end. cbn [f_text f_pos firstn app]. rewrite skipn_nil, app_nil_r. reflexivity.
      - intros H K. exists [], [], [], 0. cbn [w_term]. rewrite (HD0 H K). repeat split; auto. cbn; lia. }
    destruct (refresh_taken st0 [] [] [] T) as (st' & P & t & E1 & E2 & E3 & E4 & _ & _ & E5 & E6 & E7 & _).
    exists st', P, t. split; [exact E1|]. split; [exact E2|]. split; [exact E3|].
    assert (V : p_value st0 = 0 /\ (p_last st0 - p_start st0)%Z = 0%Z /\ p_old_out st0 = w_out st /\ p_old_err st0 = w_err st).
    { unfold st0, outputs_start, if_file. destruct hf; repeat split; cbn; lia. }
    destruct V as (V1 & V2 & V3 & V4). rewrite V1, V2 in E4. rewrite E5, E6, E7, V1, V3, V4. auto.
  Qed.

  Lemma happen_taken : forall e st O E P, (forall b t, e = Say b t -> ok -> whole_lines t) -> (forall v n, e = Update v n -> v <= top) -> taken st O E P ->
    exists st' P', happen width ws hs hf st e = (st', false) /\ taken st' (O ++ said false [e]) (E ++ said true [e]) P' /\
      p_old_out st' = p_old_out st /\ p_old_err st' = p_old_err st /\ p_value st' = match e with Update v _ => v | _ => p_value st end.
  Proof using F.
    intros e st O E P Hw Hm T. destruct e as [err t|v now|]; cbn [happen said].
    - exists (say_to (if err then w_err st else w_out st) t st), P. split; [reflexivity|]. split.
      + pose proof (say_taken err t st O E P (Hw err t eq_refl) T) as A. destruct err; cbn [Bool.eqb]; rewrite ?app_nil_r; exact A.
      + destruct err; destruct (w_err st), (w_out st); auto.
    - rewrite !app_nil_r. unfold update. rewrite (t_run _ _ _ _ T). destruct (Nat.eqb_spec (p_value st) v) as [D|D].
      + exists st, P. split; [reflexivity|]. split; [exact T|]. auto.
      + set (st0 := set_times _ _ _). assert (T0 : taken st0 O E P) by (destruct T as [T1 T2 TV T3 T4]; split; [exact T1|exact T2|exact (Hm v now eq_refl)|exact T3|exact T4]).
        destruct (refresh_taken st0 O E P T0) as (st' & P' & t & E1 & E2 & _ & _ & _ & _ & E5 & E6 & E7 & _). exists st', P'. split; [exact E1|]. split; [exact E2|]. auto.
    - rewrite !app_nil_r. destruct (refresh_taken st O E P T) as (st' & P' & t & E1 & E2 & _ & _ & _ & _ & E5 & E6 & E7 & _). exists st', P'. split; [exact E1|]. split; [exact E2|]. auto.
  Qed.
  Lemma said_cons : forall b e es, said b (e :: es) = said b [e] ++ said b es.
  Proof using Type. intros b [b' t|v n|] es; cbn; rewrite ?app_nil_r; reflexivity. Qed.
  Lemma happenings_taken : forall es st O E P, (ok -> says_whole_lines es) -> moves_within top es -> taken st O E P ->
    exists st' P', happenings width ws hs hf st es = (st', false) /\ taken st' (O ++ said false es) (E ++ said true es) P' /\
      p_old_out st' = p_old_out st /\ p_old_err st' = p_old_err st /\ p_value st' = fold_left (fun v e => match e with Update n _ => n | _ => v end) es (p_value st).
  Proof using F.
    induction es as [|e es IH]; intros st O E P Hw Hm T.
    - exists st, P. cbn. rewrite !app_nil_r. auto.
    - destruct (happen_taken e st O E P) as (s1 & P1 & E1 & T1 & A1 & A2 & A3); [intros b t -> K; apply (Hw K b t); left; reflexivity|intros v n ->; apply (Hm v n); left; reflexivity|exact T|].
      cbn [happenings]. rewrite E1. destruct (IH s1 _ _ P1 (fun K b t H => Hw K b t (or_intror H)) (fun v n H => Hm v n (or_intror H)) T1) as (s2 & P2 & E2 & T2 & B1 & B2 & B3).
      exists s2, P2. split; [exact E2|]. rewrite (said_cons false e es), (said_cons true e es), !app_assoc. split; [exact T2|]. cbn [fold_left]. rewrite B1, B2, B3, A1, A2, A3. auto.
  Qed.

  Lemma whole_run : forall now es st, (hf = true -> w_file st = File [] 0) -> (hs = true -> ok -> drawn (w_term st) = ([], [], 0)) -> (ok -> says_whole_lines es) -> moves_within top es ->
    exists st' P L el, with_pbar width ws hs hf now es st = (st', false) /\ merged (said false es) (said true es) P /\
      make_line width ws (last_value es) el = Ok L /\ w_out st' = w_out st /\ w_err st' = w_err st /\ p_running st' = false /\
      (hf = true -> f_text (w_file st') = L ++ nl :: P) /\
      (hs = true -> ok -> exists ls, Forall plain ls /\ P = unlines ls /\ looks_like (screen (w_term st')) (ls ++ [L; []])).
  Proof using F.
    intros now es st HF0 HD0 Hw Hm. destruct (start_taken now st HF0 HD0) as (s0 & P0 & t0 & E0 & T0 & _ & _ & A1 & A2 & A3).
    destruct (happenings_taken es s0 [] [] P0 Hw Hm T0) as (s1 & P1 & E1 & T1 & B1 & B2 & B3).
    destruct (refresh_taken s1 _ _ P1 T1) as (s2 & P & L & E2 & T2 & M2 & EL & FF & DD & C1 & C2 & C3 & C4 & C5).
    unfold with_pbar. rewrite E0, E1. unfold stop. rewrite (t_run _ _ _ _ T1), E2. cbn [negb].
    eexists _, P, L, _. split; [reflexivity|]. split; [exact M2|]. split; [rewrite B3, A3 in EL; exact EL|].
    split; [unfold outputs_stop, if_stream; destruct hs; cbn; congruence|]. split; [unfold outputs_stop, if_stream; destruct hs; cbn; congruence|]. split; [reflexivity|].
    split; [intros H; rewrite <- (FF H); unfold outputs_stop, if_stream; destruct hs; reflexivity|].
    intros H K. destruct (DD H K) as (ls & done & Q1 & Q2 & Q3 & Q4). exists ls. split; [exact Q1|]. split; [exact Q2|].
    unfold outputs_stop, if_stream. rewrite H. cbn [w_term set_bar to_term cap_stop set_err set_out]. unfold screen, drawn in *. rewrite fold_left_app, Q3. cbn [fold_left].
    change (draw (done, L, length L) nl) with (done ++ [L], @nil ascii, 0). cbv iota. unfold looks_like. rewrite <- app_assoc. rewrite !map_app, Q4. reflexivity.
  Qed.
End Run.
