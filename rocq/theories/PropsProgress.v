(* C106: nothing that is printed during a sweep is lost to the progress bar. *)
From Verif Require Import Base ProgressBar ProgressSpec ProgressProofs.
From Coq Require Import String.
Import ListNotations.
Local Open Scope list_scope.
Definition tx (s : string) : text := list_ascii_of_string s.

(** ** The line *)
Lemma ljust_length : forall n c t, List.length (ljust n c t) = Nat.max n (List.length t).
Proof. intros n c t. unfold ljust. rewrite app_length, repeat_length. lia. Qed.

(** The line of the default bar has exactly the width of the bar when its texts leave room for the
    brackets; of the characters between the brackets the part [value / size] is marked. *)
Theorem C106_line : forall width size progress slash percentage elapsed eta value el p e a,
  0 < size -> value <= size -> percentage value el = Ok p -> elapsed value el = Ok e -> eta value el = Ok a ->
  let used := List.length progress + List.length p + List.length e + List.length slash + List.length a + 2 in used + 2 <= width ->
  let room := width - used - 2 in let marks := value * room / size in
  make_line width (default_widgets size progress slash percentage elapsed eta) value el
  = Ok (progress ++ p ++ tx " [" ++ repeat "/"%char marks ++ blanks (room - marks) ++ tx "] " ++ e ++ slash ++ a) /\ marks <= room /\
  List.length (progress ++ p ++ tx " [" ++ repeat "/"%char marks ++ blanks (room - marks) ++ tx "] " ++ e ++ slash ++ a) = width.
Proof.
  intros width size progress slash percentage elapsed eta value el p e a Hs Hv Hp He Ha used Hw room marks.
  assert (Hm : marks <= room) by (unfold marks; apply Nat.div_le_upper_bound; [lia|]; nia).
  assert (HL : List.length (progress ++ p ++ tx " [" ++ repeat "/"%char marks ++ blanks (room - marks) ++ tx "] " ++ e ++ slash ++ a) = width).
  { unfold blanks. rewrite !app_length, !repeat_length. cbn [tx list_ascii_of_string List.length]. unfold room, used in *. lia. }
  split; [|split; [exact Hm|exact HL]].
  unfold make_line, default_widgets, label, bar. cbn [semis semi]. rewrite Hp, He, Ha. cbn [omap obind]. cbn [map ready waiting list_sum fold_right].
  set (each := Z.quot _ _).
  assert (EE : each = Z.of_nat (width - used)).
  { unfold each. change (Z.of_nat (0 + (0 + (0 + (1 + (0 + (0 + (0 + (0 + 0))))))))) with 1%Z. rewrite Z.quot_1_r. cbn [List.length]. unfold used in *. lia. }
  cbn [finished omap obind]. destruct (Nat.eqb_spec size 0) as [|_]; [lia|]. cbn [omap obind]. f_equal.
  assert (ER : Z.to_nat (each - 2) = room) by (rewrite EE; unfold room; lia).
  assert (EM : Z.to_nat (Z.quot (Z.of_nat value * (each - 2)) (Z.of_nat size)) = marks).
  { rewrite EE. replace (Z.of_nat (width - used) - 2)%Z with (Z.of_nat room) by (unfold room; lia). rewrite Z.quot_div_nonneg by lia.
    rewrite <- Nat2Z.inj_mul, <- Nat2Z.inj_div, Nat2Z.id. reflexivity. }
  rewrite ER, EM. unfold ljust at 2. rewrite repeat_length.
  transitivity (ljust width blank (progress ++ p ++ tx " [" ++ repeat "/"%char marks ++ blanks (room - marks) ++ tx "] " ++ e ++ slash ++ a)).
  - f_equal. unfold tx, blanks, blank. cbn [list_ascii_of_string app]. rewrite app_nil_r, <- !app_assoc. cbn [app]. reflexivity.
  - unfold ljust. rewrite HL, Nat.sub_diag, app_nil_r. reflexivity.
Qed.

(** The default bar fits as long as its value is at most its size. *)
Theorem C106_fits : forall width size progress slash percentage elapsed eta,
  0 < size -> plain progress -> plain slash ->
  (forall value el, value <= size -> exists p e a, percentage value el = Ok p /\ elapsed value el = Ok e /\ eta value el = Ok a /\
     plain p /\ plain e /\ plain a /\ List.length progress + List.length p + List.length e + List.length slash + List.length a + 4 <= width) ->
  fits size width (default_widgets size progress slash percentage elapsed eta).
Proof.
  intros width size progress slash percentage elapsed eta Hs Hp Hsl H value el Hv.
  destruct (H value el Hv) as (p & e & a & Ep & Ee & Ea & Pp & Pe & Pa & HW).
  destruct (C106_line width size progress slash percentage elapsed eta value el p e a Hs Hv Ep Ee Ea) as (EL & _ & LL); [lia|].
  eexists. split; [exact EL|]. split; [exact LL|].
  assert (PA : forall x y, plain x -> plain y -> plain (x ++ y)) by (intros x y [A B] [C D]; split; intros I; apply in_app_or in I; tauto).
  assert (PR : forall c n, c <> nl -> c <> cr -> plain (repeat c n)) by (intros c n A B; split; intros I; apply repeat_spec in I; congruence).
  assert (P1 : plain (tx " [")) by (split; intros I; vm_compute in I; repeat destruct I as [I|I]; discriminate || contradiction).
  assert (P2 : plain (tx "] ")) by (split; intros I; vm_compute in I; repeat destruct I as [I|I]; discriminate || contradiction).
  repeat apply PA; auto; apply PR; discriminate.
Qed.

(** ** Log file and terminal *)
(** However the bar is moved and whatever is printed in between, on one stream or the other: the bar
    raises nothing and gives the two streams back; the log file has the line of the last value, and
    below it everything that was said, each stream in its order and nothing twice. *)
Theorem C106_log : forall top width ws has_stream now es, fits top width ws -> moves_within top es ->
  exists st' line el P, with_pbar width ws has_stream true now es fresh = (st', false) /\
    make_line width ws (last_value es) el = Ok line /\ merged (said false es) (said true es) P /\
    f_text (w_file st') = line ++ nl :: P /\ w_out st' = Terminal /\ w_err st' = Terminal.
Proof.
  intros top width ws hs now es F Hm. destruct (whole_run top width ws hs true False F now es fresh) as (st' & P & L & el & E1 & E2 & E3 & E4 & E5 & _ & E6 & _); try reflexivity; try contradiction; auto.
  exists st', L, el, P. rewrite E6 by reflexivity. auto 10.
Qed.
(** If all that is printed is whole lines, then the terminal looks as if they had been printed without
    a bar, with the line of the last value below. *)
Theorem C106_terminal : forall top width ws has_file now es, fits top width ws -> moves_within top es -> says_whole_lines es ->
  exists st' line el ls, with_pbar width ws true has_file now es fresh = (st', false) /\
    make_line width ws (last_value es) el = Ok line /\ merged (said false es) (said true es) (unlines ls) /\
    looks_like (screen (w_term st')) (ls ++ [line; []]).
Proof.
  intros top width ws hf now es F Hm HW. destruct (whole_run top width ws true hf True F now es fresh) as (st' & P & L & el & E1 & E2 & E3 & _ & _ & _ & _ & E6); try reflexivity; auto.
  destruct (E6 eq_refl I) as (ls & _ & -> & EL). exists st', L, el, ls. auto.
Qed.
(** The streams are given back whatever they were, with or without outputs. *)
Theorem C106_restored : forall top width ws has_stream has_file now es st, fits top width ws -> moves_within top es -> w_file st = File [] 0 ->
  exists st', with_pbar width ws has_stream has_file now es st = (st', false) /\ w_out st' = w_out st /\ w_err st' = w_err st /\ p_running st' = false.
Proof.
  intros top width ws hs hf now es st F Hm HF. destruct (whole_run top width ws hs hf False F now es st) as (st' & P & L & el & E1 & _ & _ & E4 & E5 & E6 & _); try contradiction; auto.
  exists st'. auto.
Qed.
(** Only standard output: the text below the line is exactly what was printed. *)
Theorem C106_stdout : forall top width ws has_stream now es, fits top width ws -> moves_within top es -> (forall t, ~ In (Say true t) es) ->
  exists st' line el, with_pbar width ws has_stream true now es fresh = (st', false) /\
    make_line width ws (last_value es) el = Ok line /\ f_text (w_file st') = line ++ nl :: said false es.
Proof.
  intros top width ws hs now es F Hm HE. destruct (C106_log top width ws hs now es F Hm) as (st' & L & el & P & E1 & E2 & E3 & E4 & _).
  assert (Z : said true es = []).
  { clear - HE. induction es as [|[b t|v n|] es IH]; [reflexivity| | |]; cbn [said].
    - destruct b; [exfalso; apply (HE t); left; reflexivity|]. cbn [Bool.eqb app]. apply IH. intros t' H. apply (HE t'). right. exact H.
    - apply IH. intros t' H. apply (HE t'). right. exact H.
    - apply IH. intros t' H. apply (HE t'). right. exact H. }
  rewrite Z in E3. apply merged_left in E3. subst P. exists st', L, el. auto.
Qed.

(** ** What goes wrong without the conditions *)
Definition C106_claim : Prop := forall size width progress slash percentage elapsed eta now es,
  (forall v el, exists p e a, percentage v el = Ok p /\ elapsed v el = Ok e /\ eta v el = Ok a) ->
  exists st' line el P, with_pbar width (default_widgets size progress slash percentage elapsed eta) true true now es fresh = (st', false) /\
    make_line width (default_widgets size progress slash percentage elapsed eta) (last_value es) el = Ok line /\
    merged (said false es) (said true es) P /\ f_text (w_file st') = line ++ nl :: P /\ w_out st' = Terminal.
Definition fixed_text (s : string) (_ : nat) (_ : Z) : outcome text := Ok (tx s).

(** A bar of size zero (the exception of [percent] leaves [start], so that nobody gives the streams back):
    whatever is printed afterwards goes into a buffer that no one reads. *)
Theorem C106_empty_refuted :
  exists st', with_pbar 80 (default_widgets 0 (tx "Progress ") (tx " / ") (fixed_text " 0%") (fixed_text "0:00:00") (fixed_text "--:--:--")) true true 0 [] fresh = (st', true) /\
    w_out st' <> Terminal /\ w_err st' <> Terminal /\
    w_term (say_to (w_out st') (tx "lost") st') = w_term st' /\ w_file (say_to (w_out st') (tx "lost") st') = w_file st'.
Proof. eexists. split; [vm_compute; reflexivity|]. repeat split; discriminate. Qed.
Theorem C106_refuted : ~ C106_claim.
Proof.
  intros C. destruct C106_empty_refuted as (st & E & _).
  destruct (C 0 80 (tx "Progress ") (tx " / ") (fixed_text " 0%") (fixed_text "0:00:00") (fixed_text "--:--:--") 0%Z [] ltac:(intros; eexists _, _, _; repeat split)) as (st' & l & el & P & E' & _).
  rewrite E in E'. discriminate.
Qed.
(** A line longer than the bar, that grows (a day has passed: [elapsed] is longer than it was), overwrites
    the beginning of the log. *)
Definition elapsed_example (_ : nat) (el : Z) : outcome text := Ok (if (el <? 86400)%Z then tx "Elapsed: 0:00:00" else tx "Elapsed: 1 day, 0:00:00").
Theorem C106_narrow_refuted :
  exists st', with_pbar 10 [Fixed elapsed_example] false true 0
      [Say false (tx "alpha" ++ [nl] ++ tx "omega" ++ [nl]); Update 1 1; Say false (tx "psi" ++ [nl]); Update 2 86400] fresh = (st', false) /\
    f_text (w_file st') = tx "Elapsed: 1 day, 0:00:00" ++ [nl] ++ tx "mega" ++ [nl] ++ tx "psi" ++ [nl].
Proof. eexists. split; vm_compute; reflexivity. Qed.
(** Text without a line break at its end is wiped from the terminal (the log keeps it). *)
Theorem C106_partial_line_refuted :
  exists st', with_pbar 10 [label (tx "Progress")] true true 0 [Say false (tx "alpha"); Update 1 0; Say false (tx "omega" ++ [nl])] fresh = (st', false) /\
    map rstrip (screen (w_term st')) = [tx "omega"; tx "Progress"; []] /\
    f_text (w_file st') = tx "Progress  " ++ [nl] ++ tx "alphaomega" ++ [nl].
Proof. eexists. split; [vm_compute; reflexivity|]. split; vm_compute; reflexivity. Qed.
(** A bar that is moved before it is entered starts twice; the second start takes the buffer of the first
    for the terminal. *)
Theorem C106_twice_refuted :
  exists st1 st2, happen 10 [label (tx "Progress")] true true fresh (Update 1 0) = (st1, false) /\
    with_pbar 10 [label (tx "Progress")] true true 0 [] st1 = (st2, false) /\ w_out st2 <> Terminal.
Proof. eexists _, _. split; [vm_compute; reflexivity|]. split; [vm_compute; reflexivity|discriminate]. Qed.

(** Nothing is swallowed: the whole raises exactly if the start, something that happens or the stop raises. *)
Inductive runs_well width ws (has_stream has_file : bool) : state -> list event -> state -> Prop :=
| runs_nothing : forall st, runs_well width ws has_stream has_file st [] st
| runs_event : forall st e st' es st'', happen width ws has_stream has_file st e = (st', false) ->
    runs_well width ws has_stream has_file st' es st'' -> runs_well width ws has_stream has_file st (e :: es) st''.
Theorem C106_raises : forall width ws has_stream has_file now es st st',
  with_pbar width ws has_stream has_file now es st = (st', false) <->
  exists st0 st1, start width ws has_stream has_file now st = (st0, false) /\ runs_well width ws has_stream has_file st0 es st1 /\
    stop width ws has_stream has_file st1 = (st', false).
Proof.
  intros width ws hs hf now es st st'.
  assert (R : forall es a b, happenings width ws hs hf a es = (b, false) <-> runs_well width ws hs hf a es b).
  { clear. induction es as [|e es IH]; intros a b; cbn [happenings].
    - split; [intros H; injection H as <-; constructor|intros H; inversion H; reflexivity].
    - destruct (happen width ws hs hf a e) as [a' [|]] eqn:E.
      + split; [intros H; discriminate H|]. intros H. inversion H; subst. congruence.
      + rewrite IH. split; [intros H; econstructor; eassumption|]. intros H. inversion H; subst. congruence. }
  unfold with_pbar. destruct (start width ws hs hf now st) as [st0 [|]] eqn:E0.
  - split; [intros H; discriminate H|]. intros (x & y & H & _). discriminate H.
  - destruct (happenings width ws hs hf st0 es) as [st1 r1] eqn:E1. destruct (stop width ws hs hf st1) as [st2 r2] eqn:E2. split.
    + intros H. injection H as <- H. apply orb_false_iff in H. destruct H as [-> ->]. exists st0, st1. split; [reflexivity|]. split; [now apply R|exact E2].
    + intros (x & y & H & K & J). injection H as <-. apply R in K. rewrite E1 in K. injection K as -> ->. rewrite E2 in J. injection J as -> ->. reflexivity.
Qed.

(** ** Example *)
Definition example_widgets : list widget :=
  default_widgets 4 [] [] (fun v _ => Ok (nth v [tx " 0"; tx "25"; tx "50"; tx "75"] (tx "99"))) (fixed_text "e") (fixed_text "a").
(** At a refresh the text of standard output comes before that of standard error. *)
Example C106_example :
  exists st, with_pbar 20 example_widgets true true 0
      [Say false (tx "one" ++ [nl]); Refresh; Say true (tx "oops" ++ [nl]); Say false (tx "two" ++ [nl]); Update 2 7] fresh = (st, false) /\
    f_text (w_file st) = tx "50 [//////      ] ea" ++ [nl] ++ tx "one" ++ [nl] ++ tx "two" ++ [nl] ++ tx "oops" ++ [nl] /\
    map rstrip (screen (w_term st)) = [tx "one"; tx "two"; tx "oops"; tx "50 [//////      ] ea"; []] /\
    w_out st = Terminal /\ w_err st = Terminal.
Proof. eexists. split; [vm_compute; reflexivity|]. repeat split; vm_compute; reflexivity. Qed.
Lemma C106_example_fits : fits 4 20 example_widgets.
Proof.
  apply C106_fits; [lia|split; intros []|split; intros []|]. intros v el Hv. eexists _, _, _. repeat (split; [reflexivity|]).
  do 5 (destruct v as [|v]; [repeat split; try (intros I; vm_compute in I; repeat destruct I as [I|I]; discriminate || contradiction); vm_compute; lia|]). lia.
Qed.
