(** The theorems about [system], [print] and the table head. *)
From Verif Require Import SysSpec SysProofs MessageProofs2 MessageProps Float32Facts.
From Coq Require Import String Reals Lia Lra.
Open Scope Z_scope.

(** C273: a question is answered with the patch's own figures, at the time it was asked; nothing
    else is answered.  (Unless it is a table question cut short: C274.) *)
Theorem system_answers : forall c mem m vs, values mem m = Some vs -> ~ cut_short c vs ->
  exists r, cSystem_onMessage c mem m = Ok r /\ forall t v, r = Some (t, v) <-> t = m_ts m /\ answer c (m_ts m) vs v.
Proof. intros c mem m vs H N. destruct (system_all c mem m vs H) as [[A _]|[_ A]]; [contradiction|exact A]. Qed.
Print Assumptions system_answers.

(** One question has at most one answer. *)
Theorem system_one_answer : forall c mem m vs v w, values mem m = Some vs -> ~ cut_short c vs ->
  answer c (m_ts m) vs v -> answer c (m_ts m) vs w -> v = w.
Proof.
  intros c mem m vs v w H N A B. destruct (system_answers c mem m vs H N) as (r & _ & R).
  pose proof (proj2 (R (m_ts m) v) (conj eq_refl A)). pose proof (proj2 (R (m_ts m) w) (conj eq_refl B)). congruence.
Qed.
Print Assumptions system_one_answer.

Definition host : ctx := mkCtx (d_of_int 48000) 2 1 [(hv_string_to_hash (word "wave"), mkTab 100 104 7)].
Definition memory : bytes := [0] ++ word "table" ++ [0] ++ word "wave" ++ [0] ++ word "head" ++ [0] ++ word "samplerate" ++ [0].
Definition ask (l : list elem) : msg := mkMsg 9 (zlen l) 0 (map Some l).
Example host_rate : values memory (ask [Sym 17]) = Some [VSymbol (word "samplerate")]
  /\ cSystem_onMessage host memory (ask [Sym 17]) = Ok (Some (9, narrow (d_of_int 48000))).
Proof. split; cbv -[narrow d_of_int of_int]; reflexivity. Qed.
Example host_head : values memory (ask [Sym 1; Sym 7; Sym 12]) = Some [VSymbol (word "table"); VSymbol (word "wave"); VSymbol (word "head")]
  /\ cSystem_onMessage host memory (ask [Sym 1; Sym 7; Sym 12]) = Ok (Some (9, of_int 7)).
Proof. split; cbv -[narrow d_of_int of_int]; reflexivity. Qed.
Example host_not_cut : ~ cut_short host [VSymbol (word "samplerate")].
Proof. intros [(v & E & S)|(v & n & t & E & _)]; [injection E as <-; cbv -[narrow d_of_int of_int] in S; discriminate|discriminate]. Qed.

(** C274: exactly the table questions that are cut short stop the program. *)
Theorem system_stops_iff : forall c mem m vs, values mem m = Some vs ->
  (cSystem_onMessage c mem m = AssertFail <-> cut_short c vs) /\ cSystem_onMessage c mem m <> UB.
Proof.
  intros c mem m vs H. destruct (system_all c mem m vs H) as [[A E]|[A (r & E & _)]]; rewrite E;
    (split; [split; intro X; try discriminate; try reflexivity; try exact A; contradiction|discriminate]).
Qed.
Print Assumptions system_stops_iff.
(** So not every message is safe: the message [table], alone or with a table's name. *)
Theorem system_any_message_refuted :
  ~ (forall c mem m vs, values mem m = Some vs -> exists r, cSystem_onMessage c mem m = Ok r).
Proof.
  intro H. destruct (H host memory (ask [Sym 1]) [VSymbol (word "table")]) as (r & E); [cbv -[narrow d_of_int of_int]; reflexivity|].
  cbv -[narrow d_of_int of_int] in E. discriminate.
Qed.
Print Assumptions system_any_message_refuted.
Example name_only_stops : cSystem_onMessage host memory (ask [Sym 1; Sym 7]) = AssertFail
  /\ values memory (ask [Sym 1; Sym 7]) = Some [VSymbol (word "table"); VSymbol (word "wave")].
Proof. split; cbv -[narrow d_of_int of_int]; reflexivity. Qed.

(** C275: a table is asked for by its name; a number or a bang in its place is not answered. *)
Definition is_name (v : value) : Prop := match v with VSymbol _ | VHash _ => True | _ => False end.
Theorem table_needs_name_refuted :
  ~ (forall c mem m v n q vs r, values mem m = Some (v :: n :: q :: vs) -> says v "table" -> ~ is_name n ->
       cSystem_onMessage c mem m = Ok r -> r = None).
Proof.
  intro H.
  specialize (H host memory (ask [Sym 1; Flt (hv_string_to_hash (word "wave")); Sym 12])
    (VSymbol (word "table")) (VFloat (hv_string_to_hash (word "wave"))) (VSymbol (word "head")) [] (Some (9, of_int 7))).
  discriminate H; [cbv -[narrow d_of_int of_int]; reflexivity|reflexivity|exact (fun x => x)|cbv -[narrow d_of_int of_int]; reflexivity].
Qed.
Print Assumptions table_needs_name_refuted.
(** What does hold: a value that has no table's number is not answered. *)
Theorem table_unknown_silent : forall c mem m v n q vs, values mem m = Some (v :: n :: q :: vs) -> says v "table" ->
  (forall t, ~ In (key n, t) (x_tables c)) -> cSystem_onMessage c mem m = Ok None.
Proof.
  intros c mem m v n q vs H S N.
  assert (U : forall t, ~ names c n t).
  { unfold names, hv_table_get. intros t Ht. induction (x_tables c) as [|[k u] l IH]; cbn in Ht; [discriminate|].
    destruct (k =? key n) eqn:E.
    - apply Z.eqb_eq in E. subst k. apply (N u). left. reflexivity.
    - apply IH; [|exact Ht]. intros t' I. apply (N t'). right. exact I. }
  destruct (system_answers c mem m _ H) as (r & E & R).
  { intros [(a & X & _)|(a & b & t & X & _)]; discriminate. }
  rewrite E. destruct r as [[t w]|]; [exfalso|reflexivity].
  destruct (proj1 (R t w) eq_refl) as [_ A]. inversion A; subst;
    first [eapply U; eassumption | exact (says_apart _ _ _ ap_rt ltac:(eassumption) ltac:(eassumption))
          | exact (says_apart _ _ _ ap_it ltac:(eassumption) ltac:(eassumption))
          | exact (says_apart _ _ _ ap_ot ltac:(eassumption) ltac:(eassumption))
          | exact (says_apart _ _ _ ap_ct ltac:(eassumption) ltac:(eassumption))].
Qed.
Print Assumptions table_unknown_silent.
Example unknown_met : forall t, ~ In (key (VSymbol (word "head")), t) (x_tables host).
Proof. intros t [E|[]]. cbv -[narrow d_of_int of_int] in E. discriminate. Qed.

(** C276: the time a patch is told is the time of the message, up to sample 2^24. *)
Theorem system_time_exact : forall c mem m v vs, values mem m = Some (v :: vs) -> says v "currentTime" -> 0 <= m_ts m <= 2 ^ 24 ->
  exists x, cSystem_onMessage c mem m = Ok (Some (m_ts m, x)) /\ R32 x = IZR (m_ts m).
Proof.
  intros c mem m v vs H S B. destruct (system_answers c mem m _ H) as (r & E & R).
  { intros [(a & X & Y)|(a & b & t & X & Y & _)]; injection X as -> _; exact (says_apart _ _ _ ap_ct S Y). }
  exists (of_int (m_ts m)). split; [|apply of_int_exact; lia].
  rewrite E. f_equal. apply R. split; [reflexivity|]. constructor. exact S.
Qed.
Print Assumptions system_time_exact.
(** Beyond that two different times are told as one. *)
Theorem system_time_refuted :
  ~ (forall c mem m v vs x, values mem m = Some (v :: vs) -> says v "currentTime" -> 0 <= m_ts m < 4294967296 ->
       cSystem_onMessage c mem m = Ok (Some (m_ts m, x)) -> R32 x = IZR (m_ts m)).
Proof.
  intro H.
  pose (mm := mkMsg 16777217 1 0 [Some (Hsh (hv_string_to_hash (word "currentTime")))]).
  specialize (H host memory mm (VHash (hv_string_to_hash (word "currentTime"))) [] (of_int 16777217)).
  assert (E : of_int 16777217 = of_int 16777216) by (apply B2SF_inj; vm_compute; reflexivity).
  assert (X : R32 (of_int 16777217) = IZR 16777217)
    by (apply H; [cbv -[narrow d_of_int of_int]; reflexivity|reflexivity|unfold mm; cbn; lia|cbv -[narrow d_of_int of_int]; reflexivity]).
  rewrite E in X. rewrite (proj1 (of_int_exact 16777216 ltac:(cbn; lia))) in X.
  lra.
Qed.
Print Assumptions system_time_refuted.
Example time_met : cSystem_onMessage host memory (mkMsg 480 1 0 [Some (Hsh (hv_string_to_hash (word "currentTime")))]) = Ok (Some (480, of_int 480)).
Proof. cbv -[narrow d_of_int of_int]. reflexivity. Qed.

(** C277: with a print hook, each message printed calls it once, with the label, the message and its
    text; without one nothing happens, whatever the message. *)
Theorem print_calls_hook : forall fmt_g junk mem m vs name, values mem m = Some vs -> (forall n, 0 <= n -> zlen (junk n) = n) ->
  cPrint_onMessage fmt_g junk true mem m name = Ok (Some (mkPrint name (spaced (map (printed fmt_g) vs) ++ [0]) m)).
Proof. intros fmt_g junk mem m vs name H J. unfold cPrint_onMessage. rewrite (message_text fmt_g mem m vs junk H J). reflexivity. Qed.
Print Assumptions print_calls_hook.
Theorem print_without_hook : forall fmt_g junk mem m name, cPrint_onMessage fmt_g junk false mem m name = Ok None.
Proof. reflexivity. Qed.
Print Assumptions print_without_hook.
Example print_met : cPrint_onMessage (fun _ => [49]) (fun n => repeat 0 (Z.to_nat n)) true memory (ask [Sym 12; Flt 0; Bang]) (word "lbl")
  = Ok (Some (mkPrint (word "lbl") (word "head 1 bang" ++ [0]) (ask [Sym 12; Flt 0; Bang]))).
Proof. cbv -[narrow d_of_int of_int]. reflexivity. Qed.

(** C278: a table head object answers every bang with the head its table has at that moment, says
    nothing to other messages, and stays with its table whatever it is sent. *)
Theorem tabhead_reports : forall l k,
  (forall c mem i m, In (c, mem, i, m) l -> (exists vs, values mem m = Some vs) /\ hv_table_get c k <> None) ->
  exists rs, tabhead_run (Some k) l = Ok (Some k, rs)
    /\ Forall2 (fun (x : ctx * bytes * Z * msg) r => let '(c, mem, i, m) := x in forall vs, values mem m = Some vs -> r = head_answer c k (m_ts m) vs) l rs.
Proof.
  induction l as [|[[[c mem] i] m] l IH]; intros k H.
  - exists []. split; [reflexivity|constructor].
  - destruct (H c mem i m) as [[vs V] K]; [left; reflexivity|].
    destruct (IH k) as (rs & E & F); [intros; apply (H _ _ _ _ (or_intror H0))|].
    cbn [tabhead_run]. unfold tabhead_receive, cTabhead_onMessage. cbn [Z.eqb].
    destruct vs as [|v vs].
    { apply values_spec in V as (Hn & V). apply values_of_length in V. rewrite firstn_length in V. unfold zlen in Hn. cbn in V. lia. }
    destruct (SysProofs.values_nth mem m _ 0 v V eq_refl) as (e & G & W). change (Z.of_nat 0) with 0 in G. rewrite G. cbn [obind].
    destruct (hv_table_get c k) as [t|] eqn:T; [|congruence].
    assert (X : exists r, match e with Bang => Ok (Some k, Some (m_ts m, of_int (tb_head t))) | _ => Ok (Some k, None) end = Ok (Some k, r)
      /\ r = head_answer c k (m_ts m) (v :: vs)).
    { unfold head_answer. rewrite T. destruct e; cbn [value_of] in W.
      - injection W as <-. eexists; split; reflexivity.
      - injection W as <-. eexists; split; reflexivity.
      - destruct (cstr mem p); try discriminate. injection W as <-. eexists; split; reflexivity.
      - injection W as <-. eexists; split; reflexivity. }
    destruct X as (r & X & Y). exists (r :: rs). split.
    + destruct e; injection X as <-; cbn [obind fst snd]; rewrite E; reflexivity.
    + constructor; [|exact F]. intros vs' V'. assert (vs' = v :: vs) by congruence. subst vs'. exact Y.
Qed.
Print Assumptions tabhead_reports.
Example tabhead_met : tabhead_run (Some (hv_string_to_hash (word "wave"))) [(host, memory, 0, ask [Bang]); (host, memory, 1, ask [Sym 12]); (host, memory, 0, ask [Bang])]
  = Ok (Some (hv_string_to_hash (word "wave")), [Some (9, of_int 7); None; Some (9, of_int 7)]).
Proof. cbv -[narrow d_of_int of_int]. reflexivity. Qed.
