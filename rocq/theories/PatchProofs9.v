(** until. *)
From Verif Require Import PatchProofs PatchProofs2 PatchProofs3 PatchProofs4 PatchSpec PatchSpec2 Float32Facts.
From Coq Require Import Lia Reals Lra.
From Flocq Require Import Core.
Open Scope Z_scope.

Lemma trunc_value (x : f32) : is_finite x = true ->
  is_finite (Bnearbyint mode_ZR x) = true /\ R32 (Bnearbyint mode_ZR x) = IZR (Btrunc x).
Proof.
  intros Fx. destruct (Bnearbyint_correct 24 128 _ mode_ZR x) as (B1 & B2 & B3).
  split; [congruence |]. rewrite B1, trunc_R. unfold round, scaled_mantissa, cexp, FIX_exp, F2R. cbn [Fnum Fexp Z.opp bpow round_mode].
  rewrite !Rmult_1_r. reflexivity.
Qed.
Lemma trunc_ge1 (x : f32) : is_finite x = true -> fleb (of_int 1) (Bnearbyint mode_ZR x) = (1 <=? Btrunc x).
Proof.
  intros Fx. destruct (trunc_value x Fx) as [A1 A2]. destruct (of_int_exact 1) as [B1 B2]; [lia |].
  unfold fleb. rewrite Bleb_correct by assumption. rewrite A2, B1.
  destruct (Z.leb_spec 1 (Btrunc x)) as [N | N]; [apply Rle_bool_true, IZR_le, N | apply Rle_bool_false, IZR_lt, N].
Qed.
Lemma trunc_int (x : f32) : is_finite x = true -> 1 <= Btrunc x <= 2 ^ 24 -> Bnearbyint mode_ZR x = of_int (Btrunc x).
Proof.
  intros Fx Hx. destruct (trunc_value x Fx) as [A1 A2]. apply of_int_unique; [lia | exact A1 | exact A2 | lia].
Qed.
Definition until_nodes (b5 : bool) (n i : f32) (b19 : bool) (v : f32) (b27 b40 : bool) (z : f32) : list prim :=
  [PPass; PSeq [CF; CF]; PPass; PPass; PPass; PIf b5; PBin LESS_THAN n; PVar (EF i); PPass; PPass; PPass;
   PBinK ADD (of_int 1); PPass; PPass; PPass; PPass; PPass; PBin GREATER_THAN_EQL (of_int 1); PSeq [CA; CA];
   PIf b19; PPass; PVar (EF v); PPass; PPass; PPass; PPass; PPass; PIf b27; PBinK GREATER_THAN fzero; PUn FLOOR; PUn CEIL;
   PSeq [CA; CA]; PSeq [CF; CB]; PPass; PBox [[TE (EF (of_int 0))]]; PSeq [CF; CB]; PBox [[TE (EF (of_int 1))]]; PPass; PPass; PPass;
   PIf b40; PBox [map (fun e => TE e) [word "input"; word "needs"; word "to"; word "be"; word ">="; whole 1]];
   PPrint; PVar (EF z); PPass; PPass; PPass; PSeq [CB; CF]].
Local Notation fp := (flatten until_pd 0).
Lemma until_loop E t n : n <= 2 ^ 24 -> forall k i b5 b19 v b27 s, 0 <= i -> Z.of_nat k = n - i ->
  runs E fp t (mkWorld (until_nodes b5 (of_int n) (of_int i) b19 v b27 true (of_int 0)) [] s) [(1%nat, O, [EF (of_int i)])]
    (mkWorld (until_nodes false (of_int n) (of_int n) b19 v b27 true (of_int 0)) [] (log s (repeat (t, O, [EB]) k))).
Proof.
  intros Hn. induction k as [| k IH]; intros i b5 b19 v b27 s Hi Hk.
  - assert (i = n) by lia. subst i. cbn [repeat]. rewrite log_nil.
    pose proof (of_int_fltb n n) as Hlt. rewrite Z.ltb_irrefl in Hlt. specialize (Hlt ltac:(lia) ltac:(lia)).
    norm. run ltac:(first [rewrite Hlt | consts]).
  - pose proof (of_int_fltb i n) as Hlt. rewrite (proj2 (Z.ltb_lt i n)) in Hlt by lia. specialize (Hlt ltac:(lia) ltac:(lia)).
    pose proof (of_int_fadd i 1 ltac:(lia) ltac:(lia) ltac:(lia)) as Hadd.
    specialize (IH (i + 1) true b19 v b27 (log s [(t, O, [EB])]) ltac:(lia) ltac:(lia)).
    cbn [repeat]. change ((t, O, [EB]) :: repeat (t, O, [EB]) k) with ([(t, O, [EB])] ++ repeat (t, O, [EB]) k).
    replace (log s ([(t, O, [EB])] ++ repeat (t, O, [EB]) k)) with (log (log s [(t, O, [EB])]) (repeat (t, O, [EB]) k))
      by (unfold log; rewrite app_assoc; reflexivity).
    do 16 (one_step ltac:(first [rewrite Hlt | rewrite Hadd | consts])). exact IH.
Qed.
Inductive until_inv : unit -> world -> Prop :=
| until_i b5 n i b19 v b27 b40 s : until_inv tt (mkWorld (until_nodes b5 n i b19 v b27 b40 (of_int 0)) [] s).
Definition until_ok (l : list (Z * until_in)) : Prop :=
  Forall (fun e => match snd e with UNum x => is_finite x = true /\ Btrunc x <= 2 ^ 24 | UStop => True end) l.
Ltac to_loop facts :=
  repeat (lazymatch goal with |- runs _ _ _ _ [(1%nat, O, _)] _ => fail | _ => one_step facts end).
Lemma one_one : feqb (of_int 1) fzero = false. Proof. reflexivity. Qed.
Lemma int_zero_zero : feqb (of_int 0) fzero = true. Proof. reflexivity. Qed.
Lemma until_sends E l : until_ok l -> sends E until_pd (map until_event l) (until_spec l).
Proof.
  intros Hok.
  destruct (simulate E fp unit _ until_event (fun _ => until_spec) until_inv (fun _ => until_ok))
    with (s := tt) (l := l) (w := boot fp)
    as (w & Hp & Hs); [reflexivity | | exact Hok | | refine (sends_of E _ _ _ w _ Hp Hs); reflexivity].
  2: { exact (until_i (negb (feqb fzero fzero)) fzero (of_int 0) false (of_int 0) (negb (feqb (of_int 0) fzero)) (negb (feqb (of_int 1) fzero)) []). }
  clear. intros u [t i] l' w Hok Hi; destruct Hi as [b5 n i0 b19 v b27 b40 s].
  pose proof (Forall_inv Hok) as Hx. pose proof (Forall_inv_tail Hok) as Hl. fold (until_ok l') in Hl. cbn [snd] in Hx.
  destruct i as [x |]; cbn [until_event until_spec].
  - destruct Hx as [Fx Hx]. pose proof (trunc_ge1 x Fx) as Hge.
    assert (Hint : 1 <= Btrunc x -> Bnearbyint mode_ZR x = of_int (Btrunc x)) by (intros H; apply trunc_int; [exact Fx | lia]).
    destruct (Z.leb_spec 1 (Btrunc x)) as [Hn | Hn] in Hge.
    + specialize (Hint Hn). rewrite Hint in Hge. revert Hx Hn Hge Hint. generalize (Btrunc x). intros z Hx Hn Hge Hint. norm_in Hint.
      destruct (fltb fzero x) eqn:Hpos; eexists tt, _, _; (split; [apply plays_one; change (inlet_task fp 0 [EF x]) with [(O, O, [EF x])] |]).
      * to_loop ltac:(first [rewrite Hpos | rewrite (floor_trunc _ _ Hpos) | rewrite Hint | rewrite Hge | rewrite one_one | consts]).
        apply (until_loop E t z Hx (Z.to_nat z) 0); lia.
      * split; [constructor | split; [reflexivity | split; [reflexivity | exact Hl]]].
      * to_loop ltac:(first [rewrite Hpos | rewrite (ceil_trunc _ _ Hpos) | rewrite Hint | rewrite Hge | rewrite one_one | consts]).
        apply (until_loop E t z Hx (Z.to_nat z) 0); lia.
      * split; [constructor | split; [reflexivity | split; [reflexivity | exact Hl]]].
    + replace (Z.to_nat (Btrunc x)) with O by lia. norm_in Hge.
      destruct (fltb fzero x) eqn:Hpos; eexists tt, [], _; (split; [apply plays_one; norm |]).
      * run ltac:(first [rewrite Hpos | rewrite (floor_trunc _ _ Hpos) | rewrite Hge | rewrite one_one | consts]).
      * split; [exact (until_i _ _ _ _ _ _ _ _) | split; [cbn; now rewrite log_nil | split; [reflexivity | exact Hl]]].
      * run ltac:(first [rewrite Hpos | rewrite (ceil_trunc _ _ Hpos) | rewrite Hge | rewrite one_one | consts]).
      * split; [exact (until_i _ _ _ _ _ _ _ _) | split; [cbn; now rewrite log_nil | split; [reflexivity | exact Hl]]].
  - eexists tt, [], _. split; [apply plays_one; norm; run ltac:(first [rewrite int_zero_zero | consts]) |].
    split; [exact (until_i _ _ _ _ _ _ _ _) | split; [cbn; now rewrite log_nil | split; [reflexivity | exact Hl]]].
Qed.
(** Beyond 2^24 the counter sticks. *)
Lemma exec_back E (p : flat) now fuel w t rest w1 ts r : step E p now w t = Ok (w1, ts) ->
  exec E p now fuel w (t :: rest) = Some r -> exists f, fuel = S f /\ exec E p now f w1 (ts ++ rest) = Some r.
Proof. intros Hs He. destruct fuel as [| f]; [discriminate He |]. exists f. split; [reflexivity |]. cbn [exec] in He. now rewrite Hs in He. Qed.
Lemma count_sticks : fadd (of_int (2 ^ 24)) (of_int 1) = of_int (2 ^ 24).
Proof. apply B2SF_inj. vm_compute. reflexivity. Qed.
Lemma past_count (y : f32) z i : is_finite y = true -> R32 y = IZR z -> 2 ^ 24 < z -> 0 <= i <= 2 ^ 24 -> fltb (of_int i) y = true.
Proof.
  intros Fy Hy Hz Hi. destruct (of_int_exact i) as [A1 A2]; [lia |].
  unfold fltb. rewrite Bltb_correct by assumption. rewrite A1, Hy. apply Rlt_bool_true, IZR_lt. lia.
Qed.
Ltac back_step H facts :=
  eapply exec_back in H; [| norm; repeat (progress facts; norm); reflexivity]; destruct H as (? & ? & H); cbn [app] in H.
Lemma until_stuck E t (y : f32) z : is_finite y = true -> R32 y = IZR z -> 2 ^ 24 < z ->
  forall fuel i b5 b19 v b27 s r, 0 <= i <= 2 ^ 24 ->
  exec E fp t fuel (mkWorld (until_nodes b5 y (of_int i) b19 v b27 true (of_int 0)) [] s) [(1%nat, O, [EF (of_int i)])] = Some r -> False.
Proof.
  intros Fy Hy Hz. induction fuel as [fuel IH] using lt_wf_ind. intros i b5 b19 v b27 s r Hi H.
  pose proof (past_count y z i Fy Hy Hz Hi) as Hlt.
  assert (Hadd : exists j, 0 <= j <= 2 ^ 24 /\ fadd (of_int i) (of_int 1) = of_int j).
  { destruct (Z.eq_dec i (2 ^ 24)) as [-> | N]; [exists (2 ^ 24); split; [lia | exact count_sticks] |].
    exists (i + 1). split; [lia | apply of_int_fadd; lia]. }
  destruct Hadd as (j & Hj & Hadd).
  do 16 (back_step H ltac:(first [rewrite Hlt | rewrite Hadd | consts])).
  refine (IH _ _ j true b19 v b27 _ r Hj H). subst. repeat constructor.
Qed.
Lemma until_never E t (x : f32) : is_finite x = true -> 2 ^ 24 < Btrunc x ->
  forall fuel b5 n i b19 v b27 b40 s r, 
  exec E fp t fuel (mkWorld (until_nodes b5 n i b19 v b27 b40 (of_int 0)) [] s) (inlet_task fp 0 [EF x]) = Some r -> False.
Proof.
  intros Fx Hx fuel b5 n i b19 v b27 b40 s r. change (inlet_task fp 0 [EF x]) with [(O, O, [EF x])]. intros H.
  assert (Hpos : fltb fzero x = true).
  { unfold fltb. rewrite Bltb_correct by (reflexivity || exact Fx). apply Rlt_bool_true. change (R32 fzero) with 0%R.
    rewrite trunc_R in Hx. destruct (Rlt_le_dec 0 (R32 x)) as [P | P]; [exact P |].
    rewrite Ztrunc_ceil in Hx by exact P. assert (Zceil (R32 x) <= 0) by (apply Zceil_glb; exact P). lia. }
  pose proof (trunc_ge1 x Fx) as Hge. rewrite (proj2 (Z.leb_le 1 (Btrunc x))) in Hge by lia.
  destruct (trunc_value x Fx) as [Fy Hy]. rewrite <- (floor_trunc (e_lib E) x Hpos) in Hge, Fy, Hy.
  remember (unop_value (e_lib E) FLOOR x) as y eqn:Ey. symmetry in Ey.
  repeat (lazymatch type of H with exec _ _ _ _ _ [(1%nat, O, _)] = _ => fail | _ => 
    back_step H ltac:(first [rewrite Hpos | rewrite Ey | rewrite Hge | rewrite one_one | consts]) end).
  exact (until_stuck E t y (Btrunc x) Fy Hy Hx _ 0 _ _ _ _ _ _ ltac:(lia) H).
Qed.

Lemma until_boot : boot fp = mkWorld (until_nodes false fzero (of_int 0) false (of_int 0) false true (of_int 0)) [] [].
Proof. reflexivity. Qed.
Lemma until_endless E t (x : f32) : is_finite x = true -> 2 ^ 24 < Btrunc x ->
  (forall o, ~ sends E until_pd [In_ t 0 [EF x]] o) /\ (forall r, ~ fails E until_pd [In_ t 0 [EF x]] r).
Proof.
  intros Fx Hx. split.
  - intros o (w0 & w & Hl & Hp & _). cbv zeta in Hl, Hp. change (load_tasks fp) with (@nil task) in Hl.
    pose proof (runs_det _ _ _ _ _ _ _ Hl (runs_nil E _ _ _)) as ->. rewrite until_boot in Hp.
    remember [In_ t 0 [EF x]] as ev eqn:Hev. remember (mkWorld _ [] []) as wb eqn:Hwb in Hp. destruct Hp as [? | ? now i m w1 l ? [fuel H] _ | | ]; try discriminate Hev.
    injection Hev as -> -> -> ->. subst w. exact (until_never E t x Fx Hx _ _ _ _ _ _ _ _ _ _ H).
  - intros r (w0 & w & l1 & i & now & m & fuel & Hev & Hl & Hp & H & _). cbv zeta in Hl, Hp, H. change (load_tasks fp) with (@nil task) in Hl.
    pose proof (runs_det _ _ _ _ _ _ _ Hl (runs_nil E _ _ _)) as ->. rewrite until_boot in Hp.
    destruct l1 as [| e l1]; [| destruct l1; discriminate Hev]. injection Hev as <- <- <-.
    remember (@nil event) as ev eqn:Hev. remember (mkWorld _ [] []) as wb eqn:Hwb in Hp. destruct Hp; try discriminate Hev. subst w. exact (until_never E t x Fx Hx _ _ _ _ _ _ _ _ _ _ H).
Qed.
Lemma until_bang E t : sends E until_pd [In_ t 0 [EB]] [].
Proof.
  eapply sends_of; [reflexivity | apply plays_one; norm; run ltac:(first [rewrite one_one | consts]) | reflexivity].
Qed.
