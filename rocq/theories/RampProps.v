(** line, with messages (not line~). *)
From Verif Require Import RampSpec PatchSpec4 RampProofs6 RampProofs7 PatchProofs12 PatchProps Float32Facts.
From Coq Require Import Lia Reals Lra.
From Flocq Require Import Core.
Open Scope Z_scope.

(** At [q] samples per millisecond; times in whole milliseconds. *)
Theorem line_moves_in_steps E q k g l : whole_rate (e_sr E) (1000 * q) -> 1 <= q <= 1000 -> ramp_ms q g -> ramp_ok E q l ->
  sends E (line_pd k (of_int g)) (map ramp_event l) (ramp_spec q (ramp_start k g) l).
Proof. apply ramp_sends. Qed.
Print Assumptions line_moves_in_steps.

(** After any history [l], a target that nothing interrupts. *)
Theorem line_ramps_to_its_target E q k g l t v ms n : whole_rate (e_sr E) (1000 * q) -> 1 <= q <= 1000 -> ramp_ms q g ->
  ramp_ok E q (l ++ [At t (To v ms)]) ->
  let r := ramp_after q (ramp_start k g) l in
  sends E (line_pd k (of_int g)) (map ramp_event (l ++ At t (To v ms) :: repeat Next n))
    (ramp_spec q (ramp_start k g) l ++ whole_ramp q t (r_value r) v ms (r_grain r) n).
Proof.
  intros Hr Hq Hg Hok r. rewrite <- ramp_whole by (apply grain_pos, start_grain). unfold r. rewrite <- ramp_spec_app.
  apply ramp_sends; auto. apply Forall_app in Hok as [H1 H2]. apply Forall_app. split; [exact H1 |]. constructor; [exact (Forall_inv H2) |].
  apply Forall_forall. intros e He. apply repeat_spec in He. subst e. exact Logic.I.
Qed.
Print Assumptions line_ramps_to_its_target.

(** The values sent on the way lie on the straight line from [a] to [b]. *)
Theorem line_keeps_to_the_straight_line a b q ms g M (i : nat) :
  is_finite a = true -> is_finite b = true -> (1 <= M <= bpow radix2 80)%R -> (Rabs (val a) <= M)%R -> (Rabs (val b) <= M)%R ->
  1 <= q -> ramp_ms q ms -> 1 <= g -> ramp_ms q g -> (i < Z.to_nat (ramp_count ms g))%nat ->
  let x := ramp_value a (step_to a b ms g) i in
  is_finite x = true /\
  (Rabs (val x - (val a + INR i * IZR g / IZR ms * (val b - val a))) <= (INR i + 4) * M / 4194304)%R.
Proof.
  intros Fa Fb HM Ha Hb Hq [M1 M2] G1 [_ G2] Hi. unfold val in *.
  assert (Hpos : 0 < ms) by (destruct (Z_le_gt_dec ms 0); [rewrite count_zero in Hi by lia; lia | lia]).
  assert (Hig : Z.of_nat i * g <= ms).
  { unfold ramp_count in Hi. assert (Hi' : Z.of_nat i < (ms + g - 1) / g) by lia. pose proof (Z.mul_div_le (ms + g - 1) g ltac:(lia)). nia. }
  destruct (value_bound a b ms g M Fa Fb HM Ha Hb ltac:(nia) ltac:(nia) i) as [F B].
  { rewrite INR_IZR_INZ. assert (P : (0 < IZR g)%R) by (apply IZR_lt; lia). apply IZR_le in Hig. rewrite mult_IZR in Hig.
    unfold Rdiv. replace (IZR (Z.of_nat i)) with (IZR (Z.of_nat i) * IZR g * / IZR g)%R by (field; lra).
    apply Rmult_le_compat_r; [apply Rlt_le, Rinv_0_lt_compat, P | exact Hig]. }
  split; [exact F |]. eapply Rle_trans; [| exact B]. apply Req_le. f_equal. f_equal.
  assert (0 < IZR g)%R by (apply IZR_lt; lia). assert (0 < IZR ms)%R by (apply IZR_lt; lia). field. lra.
Qed.
Print Assumptions line_keeps_to_the_straight_line.

(** The target comes at the end of the time if that is a multiple of the grain, ... *)
Theorem line_arrives_in_time q t a b ms g : 1 <= q -> 1 <= g -> 0 <= ms -> (g | ms) ->
  exists o, whole_ramp q t a b ms g (Z.to_nat (ms / g)) = o ++ [(t + ms * q, O, [EF b])] /\ Forall (fun e => fst (fst e) < t + ms * q) o.
Proof.
  intros Hq Hg Hms [d Hd]. subst ms. rewrite Z.div_mul by lia. assert (Hd0 : 0 <= d) by nia.
  assert (HK : ramp_count (d * g) g = d).
  { unfold ramp_count. replace (d * g + g - 1) with (g - 1 + d * g) by lia. rewrite Z.div_add by lia. rewrite Z.div_small; lia. }
  unfold whole_ramp. rewrite HK, Nat.leb_refl, Z2Nat.id by lia. eexists. split; [f_equal; do 3 f_equal; lia |].
  apply Forall_map, Forall_forall. intros i Hi. apply in_seq in Hi. cbn [fst].
  assert (Z.of_nat i < d) by lia. nia.
Qed.
Print Assumptions line_arrives_in_time.
(** ... otherwise up to a grain later. *)
Theorem line_arrives_in_time_refuted E q t v : whole_rate (e_sr E) (1000 * q) -> 1 <= q <= 1000 -> plain E ramp_words v -> v <> B754_zero true ->
  exists x y, sends E (line_pd fzero (of_int 20)) (map ramp_event [At t (To v 30); Next; Next; Next])
    [(t, O, [EF x]); (t + 20 * q, O, [EF y]); (t + 40 * q, O, [EF v])].
Proof.
  intros Hr Hq Hv Hv0. pose proof (line_ramps_to_its_target E q fzero 20 [] t v 30 3 Hr Hq ltac:(split; lia)) as H. cbv zeta in H.
  eexists _, _. change (At t (To v 30) :: Next :: Next :: [Next]) with ([] ++ At t (To v 30) :: repeat Next 3).
  match type of H with _ -> sends _ _ _ ?o => match goal with |- sends _ _ _ ?o' => replace o' with o end end.
  - apply H. constructor; [| constructor]. split; [exact Hv | split; [exact Hv0 | split; lia]].
  - cbn [ramp_spec app ramp_after fold_left ramp_start r_value r_grain]. change (grain_of 20) with 20. unfold whole_ramp.
    change (Z.to_nat (ramp_count 30 20)) with 2%nat. cbn [Nat.min seq map app Nat.leb].
    replace (t + Z.of_nat 0 * (20 * q)) with t by lia. replace (t + Z.of_nat 1 * (20 * q)) with (t + 20 * q) by lia.
    replace (t + Z.of_nat 2 * (20 * q)) with (t + 40 * q) by lia. reflexivity.
Qed.
Print Assumptions line_arrives_in_time_refuted.

(** From 0 to 3 in 60 ms and back at once; "stop"; a grain of 10 ms. *)
Example line_example : sends (any_env 48000) (line_pd fzero (of_int 20))
    (map ramp_event [At 0 (To (of_int 3) 60); Next; Next; Next; Next; At 5000 (Go (of_int 7)); At 6000 (Grain 10); At 6000 (RampTime 20); At 6000 (Go (of_int 9)); At 6100 Halt; Next])
  [(0, O, [whole 0]); (960, O, [whole 1]); (1920, O, [whole 2]); (2880, O, [whole 3]); (5000, O, [whole 7]); (6000, O, [whole 7])].
Proof.
  pose proof (line_moves_in_steps (any_env 48000) 48 fzero 20 [At 0 (To (of_int 3) 60); Next; Next; Next; Next; At 5000 (Go (of_int 7)); At 6000 (Grain 10); At 6000 (RampTime 20); At 6000 (Go (of_int 9)); At 6100 Halt; Next]
    (proj2 env_48000) ltac:(lia) ltac:(split; lia)) as H.
  match type of H with _ -> sends _ _ _ ?o => match goal with |- sends _ _ _ ?o' => replace o' with o end end.
  - apply H. unfold ramp_ok, plain, ramp_words, ramp_ms.
    repeat (first [exact Logic.I | apply Forall_nil | apply Forall_cons | (split; lia) | split | discriminate | (vm_compute; discriminate)]).
  - assert (S1 : step_to fzero (of_int 3) 60 20 = of_int 1) by (apply B2SF_inj; vm_compute; reflexivity).
    assert (A1 : fadd fzero (of_int 1) = of_int 1) by (apply B2SF_inj; vm_compute; reflexivity).
    assert (A2 : fadd (of_int 1) (of_int 1) = of_int 2) by (apply B2SF_inj; vm_compute; reflexivity).
    cbv -[of_int fadd step_to fzero]. rewrite S1, A1, A2. reflexivity.
Qed.
