(** Producer progress, acceptance on a drained pipe, and counterexamples. *)
From Verif Require Import PipeModel PipeProofs.
Require Import ZifyBool ZifyNat.

Definition pmeas (p : ppc) : nat :=
  match p with
  | P_idle => 0
  | P_commit _ _ => 1
  | P_prod _ => 2
  | P_fill r i => 3 + (length r - i)
  | P_wraploop r _ => 4 + length r
  | P_wrapstop r _ => 5 + length r
  | P_check r _ => 6 + length r
  | P_enter r => 7 + length r
  end.

Definition cur (p : ppc) : option (list Z) :=
  match p with
  | P_idle => None
  | P_enter r | P_check r _ | P_wrapstop r _ | P_wraploop r _ | P_fill r _ | P_prod r | P_commit r _ => Some r
  end.

Lemma pstep_prog s s' r :
  cur (pp s) = Some r -> pstep s = Ok s' ->
  (pmeas (pp s') < pmeas (pp s))%nat /\
  ((cur (pp s') = Some r /\ sent s' = sent s /\ refused s' = refused s) \/
   (pp s' = P_idle /\ sent s' = sent s ++ [r] /\ refused s' = refused s) \/
   (pp s' = P_idle /\ sent s' = sent s /\ refused s' = refused s ++ [r] /\
    buf s' = buf s /\ wh s' = wh s /\ rem s' = rem s)).
Proof.
  intros Hc E. unfold pstep in E.
  destruct (pp s) eqn:Ep; cbn [cur] in Hc; try discriminate; inversion Hc; subst; clear Hc.
  - inversion E; subst; clear E; cbn. split; [lia|auto].
  - destruct (u32 (zlen r + 8) <=? rem s).
    + destruct ((wh s <? rhs) && (rhs <=? wh s + 4 + zlen r)); inversion E; subst; clear E; cbn;
        (split; [lia|]); auto 10.
    + destruct (u32 (zlen r + 8) <=? len s).
      * destruct ((wh s <? rhs) || (rhs <? u32 (zlen r + 8))); inversion E; subst; clear E; cbn;
        (split; [lia|]); auto 10.
      * inversion E; subst; clear E; cbn. (split; [lia|]); auto 10.
  - unfold store32 in E. destruct (in_buf s 0 4); cbn [obind] in E; inversion E; subst; cbn. split; [lia|auto].
  - unfold store32 in E. destruct (in_buf s old 4); cbn [obind] in E; inversion E; subst; cbn. split; [lia|auto].
  - destruct (nth_error r i) eqn:En.
    + unfold store8 in E. destruct (in_buf s _ 1); cbn [obind] in E; inversion E; subst; cbn.
      assert (i < length r)%nat by (apply nth_error_Some; congruence). split; [lia|auto].
    + inversion E; subst; cbn. split; [lia|auto].
  - destruct (u32 (zlen r + 8) <=? rem s); [|discriminate].
    unfold store32 in E. destruct (in_buf _ _ 4); cbn [obind] in E; inversion E; subst; cbn. split; [lia|auto].
  - unfold store32 in E. destruct (in_buf s old 4); cbn [obind] in E; inversion E; subst; cbn. split; [lia|auto].
Qed.

Lemma finish_send_aux k : forall s w f bk r,
  Inv s w f bk -> cur (pp s) = Some r -> (pmeas (pp s) <= k)%nat ->
  exists j s', run s (repeat Prod j) = Ok s' /\ pp s' = P_idle /\ recv s' = recv s /\ rh s' = rh s /\ cp s' = cp s /\
    ((sent s' = sent s ++ [r] /\ refused s' = refused s) \/
     (sent s' = sent s /\ refused s' = refused s ++ [r])).
Proof.
  induction k as [|k IH]; intros s w f bk r HI Hc Hm.
  - destruct (pp s); cbn in *; try lia; discriminate.
  - destruct (pstep_inv _ _ _ _ HI) as (s1 & w1 & f1 & bk1 & E & HI1 & Hr & Hl & Hrh & Hcp & _).
    destruct (pstep_prog _ _ _ Hc E) as (Hlt & [(Hc1 & Hs1 & Hf1)|[(Hp1 & Hs1 & Hf1)|(Hp1 & Hs1 & Hf1 & _)]]).
    + destruct (IH s1 w1 f1 bk1 r HI1 Hc1) as (j & s' & E' & Hp & Hr' & Hrh' & Hcp' & Hd); [lia|].
      exists (S j), s'. cbn [repeat run step]. rewrite E; cbn [obind].
      repeat (split; [first [assumption|congruence]|]). rewrite Hs1, Hf1 in Hd. exact Hd.
    + exists 1%nat, s1. cbn [repeat run step]. rewrite E; cbn [obind]. auto 10.
    + exists 1%nat, s1. cbn [repeat run step]. rewrite E; cbn [obind]. auto 10.
Qed.

Lemma finish_send s w f bk r :
  Inv s w f bk -> pp s = P_idle -> good r ->
  exists j s', run s (Send r :: repeat Prod j) = Ok s' /\ pp s' = P_idle /\ recv s' = recv s /\ rh s' = rh s /\
    cp s' = cp s /\
    ((sent s' = sent s ++ [r] /\ refused s' = refused s) \/
     (sent s' = sent s /\ refused s' = refused s ++ [r])).
Proof.
  intros HI Hp Hg. destruct (send_inv _ _ _ _ r HI Hg) as (s1 & E & HI1).
  assert (E1 : s1 = set_p s (P_enter r)) by (cbn [step] in E; rewrite Hp in E; congruence).
  subst s1.
  destruct (finish_send_aux _ _ _ _ _ r HI1 eq_refl (le_n _)) as (j & s' & E' & H).
  exists j, s'. cbn [run]. rewrite E; cbn [obind]. split; [exact E'|exact H].
Qed.

(** Drained pipe: which records are accepted. *)
Lemma accept_step s r :
  Inv s None [] [] -> pp s = P_idle -> good r -> 2 * (zlen r + 8) <= len s ->
  exists s2, run s [Send r; Prod; Prod] = Ok s2 /\ cur (pp s2) = Some r /\ sent s2 = sent s /\ refused s2 = refused s.
Proof.
  intros HI Hp Hg Hlen. pose proof HI as (HL & HP & _).
  destruct HL as (H1 & H2 & H3 & H4 & H5 & H6 & H7 & (_ & H8)).
  unfold cw in *; rewrite Hp in *. unfold pinv in HP; rewrite Hp in HP. cbn [seg] in H8.
  destruct Hg as (Hg1 & Hg2 & Hg3).
  cbn [run step]. rewrite Hp. cbn [obind]. unfold pstep at 1.
  cbn [pp set_p obind]. unfold pstep. cbn [pp set_p obind wh rem len rh].
  rewrite u32_id by lia.
  destruct (Z.leb_spec (zlen r + 8) (rem s)).
  - destruct (Z.ltb_spec (wh s) (rh s)); [lia|]. cbn [andb obind]. eexists; split; [reflexivity|]. cbn; auto.
  - destruct (Z.leb_spec (zlen r + 8) (len s)); [|lia].
    destruct (Z.ltb_spec (wh s) (rh s)); [lia|]. cbn [orb].
    destruct (Z.ltb_spec (rh s) (zlen r + 8)); [lia|]. cbn [obind]. eexists; split; [reflexivity|]. cbn; auto.
Qed.

(** After [P_check] a record is never refused any more. *)
Definition past_check (p : ppc) : Prop :=
  match p with P_idle | P_enter _ | P_check _ _ => False | _ => True end.

Lemma pstep_past s s' r : past_check (pp s) -> cur (pp s) = Some r -> pstep s = Ok s' ->
  (past_check (pp s') /\ cur (pp s') = Some r /\ sent s' = sent s /\ refused s' = refused s /\
     (pmeas (pp s') < pmeas (pp s))%nat) \/
  (pp s' = P_idle /\ sent s' = sent s ++ [r] /\ refused s' = refused s).
Proof.
  intros Hpc Hc E. pose proof (pstep_prog _ _ _ Hc E) as (Hm & Hd).
  assert (Hno : pp s' = P_idle -> sent s' <> sent s).
  { intros Hi Heq. unfold pstep in E. destruct (pp s) eqn:Ep; cbn [past_check] in Hpc; try contradiction.
    - destruct (store32 s 0 HLP_STOP); cbn [obind] in E; inversion E; subst; discriminate.
    - destruct (store32 s old HLP_LOOP); cbn [obind] in E; inversion E; subst; discriminate.
    - destruct (nth_error r0 i).
      + destruct (store8 s (wh s + 4 + Z.of_nat i) z); cbn [obind] in E; inversion E; subst; discriminate.
      + inversion E; subst; discriminate.
    - destruct (u32 (zlen r0 + 8) <=? rem s); [|discriminate].
      match type of E with obind ?x _ = _ => destruct x end; cbn [obind] in E; inversion E; subst; discriminate.
    - unfold store32 in E. destruct (in_buf s old 4); cbn [obind] in E; inversion E; subst.
      cbn [sent log_sent set_p set_buf] in Heq.
      apply (f_equal (@length (list Z))) in Heq. rewrite app_length in Heq; cbn [length] in Heq; lia. }
  destruct Hd as [(Hc1 & Hs1 & Hf1)|[(Hp1 & Hs1 & Hf1)|(Hp1 & Hs1 & _)]].
  - left. repeat split; try assumption.
    unfold pstep in E. destruct (pp s) eqn:Ep; cbn [past_check] in Hpc; try contradiction.
    + destruct (store32 s 0 HLP_STOP); cbn [obind] in E; inversion E; subst; exact I.
    + destruct (store32 s old HLP_LOOP); cbn [obind] in E; inversion E; subst; exact I.
    + destruct (nth_error r0 i).
      * destruct (store8 s (wh s + 4 + Z.of_nat i) z); cbn [obind] in E; inversion E; subst; exact I.
      * inversion E; subst; exact I.
    + destruct (u32 (zlen r0 + 8) <=? rem s); [|discriminate].
      match type of E with obind ?x _ = _ => destruct x end; cbn [obind] in E; inversion E; subst; exact I.
    + destruct (store32 s old (zlen r0)); cbn [obind] in E; inversion E; subst. discriminate.
  - right; auto.
  - exfalso; apply Hno; assumption.
Qed.

Lemma past_finish k : forall s w f bk r,
  Inv s w f bk -> past_check (pp s) -> cur (pp s) = Some r -> (pmeas (pp s) <= k)%nat ->
  exists j s', run s (repeat Prod j) = Ok s' /\ pp s' = P_idle /\ sent s' = sent s ++ [r] /\ refused s' = refused s.
Proof.
  induction k as [|k IH]; intros s w f bk r HI Hpc Hc Hm.
  - destruct (pp s); cbn in *; try lia; contradiction.
  - destruct (pstep_inv _ _ _ _ HI) as (s1 & w1 & f1 & bk1 & E & HI1 & _).
    destruct (pstep_past _ _ _ Hpc Hc E) as [(Hp1 & Hc1 & Hs1 & Hf1 & Hlt)|(Hp1 & Hs1 & Hf1)].
    + destruct (IH _ _ _ _ r HI1 Hp1 Hc1) as (j & s' & E' & Ha & Hb & Hd); [lia|].
      exists (S j), s'. cbn [repeat run step]. rewrite E; cbn [obind].
      repeat (split; [first [assumption|congruence]|]). congruence.
    + exists 1%nat, s1. cbn [repeat run step]. rewrite E; cbn [obind]. auto.
Qed.

Lemma accept_drained s r :
  Inv s None [] [] -> pp s = P_idle -> good r -> 2 * (zlen r + 8) <= len s ->
  exists j s', run s (Send r :: repeat Prod j) = Ok s' /\ pp s' = P_idle /\
    sent s' = sent s ++ [r] /\ refused s' = refused s.
Proof.
  intros HI Hp Hg Hlen.
  destruct (finish_send s None [] [] r HI Hp Hg) as (j & s' & E & Hp' & _ & _ & _ & [(Hs & Hf)|(Hs & Hf)]).
  - exists j, s'; auto.
  - exfalso.
    destruct (accept_step s r HI Hp Hg Hlen) as (s2 & E2 & Hc2 & Hs2 & Hf2).
    assert (exists w f bk, Inv s2 w f bk) as (w & f & bk & HI2).
    { destruct (run_inv [Send r; Prod; Prod] s None [] [] HI) as (x & w & f & bk & Ex & HIx).
      - constructor; [exact Hg|]. constructor; [exact I|]. constructor; [exact I|constructor].
      - rewrite E2 in Ex; inversion Ex; subst. eauto. }
    assert (Hpc : past_check (pp s2)).
    { cbn [run step] in E2. rewrite Hp in E2. cbn [obind] in E2. unfold pstep at 1 in E2.
      cbn [pp set_p obind] in E2. unfold pstep in E2. cbn [pp set_p obind] in E2.
      repeat match type of E2 with
             | context[if ?c then _ else _] => destruct c
             end; cbn [obind] in E2; inversion E2; subst; cbn in *; auto; discriminate. }
    destruct (past_finish _ s2 w f bk r HI2 Hpc Hc2 (le_n _)) as (j2 & s3 & E3 & Hp3 & Hs3 & Hf3).
    (* both runs end in P_idle; producer idle is a fixpoint, so the states agree *)
    assert (Hfix : forall k x, pp x = P_idle -> run x (repeat Prod k) = Ok x).
    { induction k as [|k IHk]; intros x Hx; cbn [repeat run step]; [reflexivity|].
      unfold pstep; rewrite Hx; cbn [obind]; apply IHk; exact Hx. }
    assert (Hsplit : forall k a b, run s (Send r :: repeat Prod (a + b)) = Ok k ->
              exists y, run s (Send r :: repeat Prod a) = Ok y /\ run y (repeat Prod b) = Ok k).
    { intros k a b Ek. rewrite repeat_app in Ek. rewrite app_comm_cons, run_app in Ek.
      destruct (run s (Send r :: repeat Prod a)) as [y| |]; cbn [obind] in Ek; try discriminate. eauto. }
    assert (E4 : run s (Send r :: repeat Prod (2 + j2)) = Ok s3).
    { rewrite repeat_app, app_comm_cons, run_app. change (Send r :: repeat Prod 2) with [Send r; Prod; Prod].
      rewrite E2; cbn [obind]. exact E3. }
    assert (E5 : run s (Send r :: repeat Prod (2 + j2 + j)) = Ok s3).
    { rewrite repeat_app, app_comm_cons, run_app, E4; cbn [obind]. apply Hfix; exact Hp3. }
    assert (E6 : run s (Send r :: repeat Prod (j + (2 + j2))) = Ok s').
    { rewrite repeat_app, app_comm_cons, run_app, E; cbn [obind]. apply Hfix; exact Hp'. }
    replace (j + (2 + j2))%nat with (2 + j2 + j)%nat in E6 by lia.
    rewrite E5 in E6; inversion E6; subst s'.
    rewrite Hs3, Hs2 in Hs. apply (f_equal (@length (list Z))) in Hs. rewrite app_length in Hs; cbn in Hs; lia.
Qed.

(** ** Counterexamples *)
Definition send_all (r : list Z) : list label := Send r :: repeat Prod (length r + 8).
Definition take_one (n : nat) : list label := repeat Cons (n + 5).
Definition junk0 : mem := fun _ => 0.
Definition rec (n : nat) (v : Z) : list Z := repeat v n.

(** Sizes of records that [sendSymbolToReceiver] writes: 32 + 2*strlen + 1. *)
Definition symbol_record_size (n : Z) : Prop := exists k, 0 <= k /\ n = 33 + 2 * k.

Definition odd_run : list label :=
  concat [send_all (rec 47 1); send_all (rec 51 2); send_all (rec 55 3); send_all (rec 53 4);
          send_all (rec 53 5); send_all (rec 39 6); send_all (rec 37 7); send_all (rec 39 8);
          send_all (rec 35 9); send_all (rec 37 10); send_all (rec 55 11); send_all (rec 57 12);
          send_all (rec 53 13); send_all (rec 43 14); send_all (rec 49 15); take_one 47;
          send_all (rec 41 16); send_all (rec 57 17); take_one 51; send_all (rec 51 18);
          send_all (rec 57 19); send_all (rec 39 20); send_all (rec 57 21)].

Definition init1024 : pipe := match hLp_init junk0 1024 with Ok s => s | _ => mkPipe 0 junk0 0 0 0 P_idle C_idle [] [] [] end.
Definition odd_state : pipe := match run init1024 odd_run with Ok s => s | _ => init1024 end.
Definition reads_stop (s : pipe) : bool :=
  match cp s with C_idle => in_buf s (rh s) 4 && (rd32 (buf s) (rh s) =? 0) | _ => false end.
Definition summary (s : pipe) : bool * (nat * nat) := (reads_stop s, (length (sent s), length (recv s))).

Lemma stuck_consumer s : reads_stop s = true -> forall k, run s (repeat Cons k) = Ok s.
Proof.
  intros H. unfold reads_stop in H. destruct (cp s) eqn:Ec; try discriminate.
  apply andb_true_iff in H. destruct H as (Hb & Hz).
  induction k as [|k IH]; cbn [repeat run step]; [reflexivity|].
  unfold cstep. rewrite Ec. unfold load32. rewrite Hb. cbn [obind].
  apply Z.eqb_eq in Hz. rewrite Hz. change (0 =? HLP_LOOP) with false. cbn [Z.eqb obind]. exact IH.
Qed.

Lemma odd_state_ok : run init1024 odd_run = Ok odd_state.
Proof.
  unfold odd_state.
  assert (H : (match run init1024 odd_run with Ok _ => true | _ => false end) = true) by (vm_compute; reflexivity).
  destruct (run init1024 odd_run) as [s| |]; [reflexivity|discriminate|discriminate].
Qed.

Lemma odd_state_summary : summary odd_state = (true, (21%nat, 2%nat)).
Proof. vm_compute; reflexivity. Qed.

Definition sends (ls : list label) : list (list Z) :=
  concat (map (fun l => match l with Send r => [r] | _ => [] end) ls).

Definition symbol_size_b (n : Z) : bool := (33 <=? n) && Z.odd n.
Lemma symbol_size_b_ok n : symbol_size_b n = true -> symbol_record_size n.
Proof.
  unfold symbol_size_b, symbol_record_size. intros H. apply andb_true_iff in H. destruct H as (H1 & H2).
  apply Z.odd_spec in H2. destruct H2 as (k & ->). exists (k - 16). lia.
Qed.

Lemma odd_run_sizes : Forall (fun r => symbol_record_size (zlen r)) (sends odd_run).
Proof.
  apply Forall_forall. intros r Hr. apply symbol_size_b_ok.
  assert (H : forallb (fun r => symbol_size_b (zlen r)) (sends odd_run) = true) by (vm_compute; reflexivity).
  rewrite forallb_forall in H. apply H; exact Hr.
Qed.

Lemma odd_size_loss :
  exists ls s, Forall (fun r => symbol_record_size (zlen r)) (sends ls) /\
    run init1024 ls = Ok s /\ pp s = P_idle /\ (length (recv s) < length (sent s))%nat /\
    forall k, run s (repeat Cons k) = Ok s.
Proof.
  exists odd_run, odd_state. split; [exact odd_run_sizes|]. split; [exact odd_state_ok|].
  split; [vm_compute; reflexivity|].
  pose proof (f_equal fst odd_state_summary) as H1.
  pose proof (f_equal (fun x => fst (snd x)) odd_state_summary) as H2.
  pose proof (f_equal (fun x => snd (snd x)) odd_state_summary) as H3.
  unfold summary in H1, H2, H3. cbn [fst snd] in H1, H2, H3.
  split; [rewrite H2, H3; lia|]. apply stuck_consumer; exact H1.
Qed.

(** Smaller witness in which a record arrives truncated. *)
Definition trunc_run : list label :=
  concat [send_all (rec 12 1); send_all (rec 260 2); take_one 12; send_all (rec 1 3); send_all (rec 4 4);
          take_one 256].
Definition init288 : pipe := match hLp_init junk0 288 with Ok s => s | _ => init1024 end.
Definition trunc_state : pipe := match run init288 trunc_run with Ok s => s | _ => init288 end.

Lemma trunc_loss :
  (exists s, run init288 trunc_run = Ok s /\ nth_error (sent s) 1 = Some (repeat 2 260)
             /\ nth_error (recv s) 1 = Some (repeat 2 256)).
Proof.
  assert (H : match run init288 trunc_run with
          | Ok s => (nth_error (sent s) 1, nth_error (recv s) 1)
          | _ => (None, None) end = (Some (repeat 2 260), Some (repeat 2 256))) by (vm_compute; reflexivity).
  destruct (run init288 trunc_run) as [s| |]; try discriminate.
  pose proof (f_equal fst H) as H1. pose proof (f_equal snd H) as H2. exists s; auto.
Qed.

(** A drained pipe refuses a record that fits its buffer, for ever. *)
Definition init64 : pipe := match hLp_init junk0 64 with Ok s => s | _ => init1024 end.
Definition half_run : list label := send_all (rec 24 1) ++ take_one 24.
Definition half_state : pipe := match run init64 half_run with Ok s => s | _ => init64 end.
Definition half_state2 : pipe :=
  match run half_state (Send (rec 32 2) :: repeat Prod 2) with Ok s => s | _ => half_state end.
Definition is_ok {A} (o : outcome A) : bool := match o with Ok _ => true | _ => false end.
Lemma is_ok_eq {A} (o : outcome A) d : is_ok o = true -> o = Ok (match o with Ok s => s | _ => d end).
Proof. destruct o; cbn; congruence. Qed.

Lemma half_refused :
  exists s, run init64 half_run = Ok s /\ pp s = P_idle /\ cp s = C_idle /\ recv s = sent s /\
    zlen (rec 32 2) + 8 <= len s /\
    exists s', run s (Send (rec 32 2) :: repeat Prod 2) = Ok s' /\
      refused s' = refused s ++ [rec 32 2] /\ pp s' = P_idle /\
      rh s' = rh s /\ wh s' = wh s /\ rem s' = rem s /\ sent s' = sent s.
Proof.
  exists half_state. split; [apply is_ok_eq; vm_compute; reflexivity|].
  split; [vm_compute; reflexivity|]. split; [vm_compute; reflexivity|]. split; [vm_compute; reflexivity|].
  split; [vm_compute; congruence|].
  exists half_state2. split; [apply is_ok_eq; vm_compute; reflexivity|].
  do 5 (split; [vm_compute; reflexivity|]). vm_compute; reflexivity.
Qed.

Lemma store32_len s a v s' : store32 s a v = Ok s' -> len s' = len s.
Proof. unfold store32; destruct (in_buf s a 4); intros E; inversion E; reflexivity. Qed.
Lemma store8_len s a v s' : store8 s a v = Ok s' -> len s' = len s.
Proof. unfold store8; destruct (in_buf s a 1); intros E; inversion E; reflexivity. Qed.

Lemma step_len s l s' : step s l = Ok s' -> len s' = len s.
Proof.
  intros E. destruct l as [r| |]; cbn [step] in E.
  - destruct (pp s); inversion E; reflexivity.
  - unfold pstep in E. destruct (pp s).
    + inversion E; reflexivity.
    + inversion E; reflexivity.
    + destruct (u32 (zlen r + 8) <=? rem s).
      * destruct ((wh s <? rhs) && (rhs <=? wh s + 4 + zlen r)); inversion E; reflexivity.
      * destruct (u32 (zlen r + 8) <=? len s); [|inversion E; reflexivity].
        destruct ((wh s <? rhs) || (rhs <? u32 (zlen r + 8))); inversion E; reflexivity.
    + destruct (store32 s 0 HLP_STOP) eqn:E1; cbn [obind] in E; inversion E; subst.
      exact (store32_len _ _ _ _ E1).
    + destruct (store32 s old HLP_LOOP) eqn:E1; cbn [obind] in E; inversion E; subst.
      exact (store32_len _ _ _ _ E1).
    + destruct (nth_error r i).
      * destruct (store8 s (wh s + 4 + Z.of_nat i) z) eqn:E1; cbn [obind] in E; inversion E; subst.
        exact (store8_len _ _ _ _ E1).
      * inversion E; reflexivity.
    + destruct (u32 (zlen r + 8) <=? rem s); [|discriminate].
      match type of E with obind ?x _ = _ => destruct x eqn:E1 end; cbn [obind] in E; inversion E; subst.
      exact (store32_len _ _ _ _ E1).
    + destruct (store32 s old (zlen r)) eqn:E1; cbn [obind] in E; inversion E; subst.
      exact (store32_len _ _ _ _ E1).
  - unfold cstep in E. destruct (cp s);
      try (destruct (load32 s (rh s)) eqn:E1; cbn [obind] in E; try discriminate).
    + destruct (a =? HLP_LOOP); [|destruct (a =? 0)]; inversion E; reflexivity.
    + inversion E; reflexivity.
    + inversion E; reflexivity.
    + inversion E; reflexivity.
    + destruct (a =? 0); inversion E; reflexivity.
    + inversion E; reflexivity.
    + destruct (zlen acc <? n); [|inversion E; reflexivity].
      destruct (load8 s (rh s + 4 + zlen acc)); cbn [obind] in E; inversion E; reflexivity.
    + destruct (zlen acc <? n); [|inversion E; reflexivity].
      destruct (load8 s (rh s + 4 + zlen acc)); cbn [obind] in E; inversion E; reflexivity.
    + destruct (zlen acc <? n); [|inversion E; reflexivity].
      destruct (load8 s (rh s + 4 + zlen acc)); cbn [obind] in E; inversion E; reflexivity.
    + destruct (negb (a =? HLP_STOP)); inversion E; reflexivity.
    + inversion E; reflexivity.
Qed.

Lemma run_len ls : forall s s', run s ls = Ok s' -> len s' = len s.
Proof.
  induction ls as [|l ls IH]; intros s s' E; cbn [run] in E; [congruence|].
  destruct (step s l) as [x| |] eqn:Es; cbn [obind] in E; try discriminate.
  rewrite (IH _ _ E). exact (step_len _ _ _ Es).
Qed.

Definition good_b (r : list Z) : bool :=
  (0 <? zlen r) && (zlen r mod 4 =? 0) && (zlen r + 8 <? 4294967296).
Lemma good_b_ok r : good_b r = true -> good r.
Proof. unfold good_b, good. intros H. rewrite !andb_true_iff in H. lia. Qed.
Definition good_labels_b (ls : list label) : bool :=
  forallb (fun l => match l with Send r => good_b r | _ => true end) ls.
Lemma good_labels_b_ok ls : good_labels_b ls = true -> Forall good_label ls.
Proof.
  unfold good_labels_b. rewrite forallb_forall, Forall_forall. intros H l Hl. specialize (H l Hl).
  destruct l as [r| |]; cbn [good_label]; auto. apply good_b_ok; exact H.
Qed.
