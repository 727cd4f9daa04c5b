(** line: all of it. *)
From Verif Require Import PatchProofs PatchProofs2 PatchProofs3 PatchProofs4 PatchProofs7 PatchProofs8 RampSpec RampProofs RampProofs2 RampProofs3 RampProofs4 RampProofs5.
From Coq Require Import Lia.
Open Scope Z_scope.

Lemma ramp_sends E q k g l : whole_rate (e_sr E) (1000 * q) -> 1 <= q <= 1000 -> ramp_ms q g -> ramp_ok E q l ->
  sends E (line_pd k (of_int g)) (map ramp_event l) (ramp_spec q (ramp_start k g) l).
Proof.
  intros Hr Hq Hg Hok. assert (H20 : 125 * q * 20 <= 2 ^ 24) by lia.
  destruct (ramp_load E q k g Hr Hq Hg H20) as (m1 & gm & lf & steps & c & Hload). cbv zeta in Hload.
  destruct (simulate E (flatten (line_pd k (of_int g)) 0) ramp _ ramp_event (ramp_spec q)
              (fun r w => ramp_inv E q r w /\ r_goal r <> B754_zero true) (fun _ => ramp_ok E q))
    with (s := ramp_start k g) (l := l) (w := ramp_world E q (ramp_start k g) m1 gm lf steps c [])
    as (w & Hp & Hs); [reflexivity | | exact Hok | | exact (sends_loaded E _ _ _ _ w Hload Hp Hs)].
  - clear Hok Hload. intros r e l' w Hok [Hi Hgo].
    pose proof (Forall_inv Hok) as Hx. pose proof (Forall_inv_tail Hok) as Hl. fold (ramp_ok E q l') in Hl. cbv beta in Hx.
    assert (K : keeps E q k (of_int g) r w e /\ r_goal (snd (ramp_step q r e)) <> B754_zero true).
    { destruct e as [t [v ms | v | | v | ms | ms] |].
      - destruct Hx as (H1 & H2 & H3). split; [apply ramp_to_run; assumption |].
        unfold ramp_step, ramp_tick, ramp_to. cbn [r_left]. destruct (ms <=? 0); exact H2.
      - destruct Hx as (H1 & H2). split; [apply ramp_go_run; assumption |].
        unfold ramp_step, ramp_tick, ramp_to. cbn [r_left]. destruct (r_time r <=? 0); exact H2.
      - split; [apply ramp_halt_run; assumption | exact Hgo].
      - split; [apply ramp_set_run; assumption | exact Hgo].
      - split; [apply ramp_time_run; assumption | exact Hgo].
      - split; [apply ramp_grain_run; [exact Hr | exact Hq | exact Hi | exact (proj1 Hx) | exact (proj2 Hx)] | exact Hgo].
      - split; [apply ramp_next_run; [exact Hq | exact Hi | intros _ _; exact Hgo] |].
        unfold ramp_step, ramp_tick. destruct (r_due r); [destruct (r_left r <=? 0) |]; exact Hgo. }
    destruct K as [(w1 & P1 & P2 & P3) Hgo1]. exists (snd (ramp_step q r e)), (fst (ramp_step q r e)), w1.
    split; [exact P1 |]. split; [exact (conj P3 Hgo1) |]. split; [exact P2 |]. split; [| exact Hl].
    cbn [ramp_spec]. destruct (ramp_step q r e); reflexivity.
  - split; [| discriminate]. split.
    + do 6 eexists. split; [reflexivity | discriminate].
    + unfold ramp_start, grain_of; cbn [r_grain r_time]. destruct Hg. destruct (Z.leb_spec g 0); (split; [lia | split; [lia | split; lia]]).
Qed.

(** ** The whole ramp *)
Lemma ramp_spec_app q l1 l2 : forall r, ramp_spec q r (l1 ++ l2) = ramp_spec q r l1 ++ ramp_spec q (ramp_after q r l1) l2.
Proof.
  induction l1 as [| e l1 IH]; intros r; [reflexivity |]. cbn [app ramp_spec]. unfold ramp_after. cbn [fold_left].
  destruct (ramp_step q r e) as [o r'] eqn:H. cbn [snd]. rewrite IH. unfold ramp_after. now rewrite app_assoc.
Qed.
Lemma idle_nothing q r n : r_due r = None -> ramp_spec q r (repeat Next n) = [].
Proof. intros H. induction n as [| n IH]; [reflexivity |]. cbn [repeat ramp_spec ramp_step]. rewrite H. exact IH. Qed.
Definition out_at (q t g : Z) (a s : f32) (i : nat) : out := (t + Z.of_nat i * (g * q), O, [EF (ramp_value a s i)]).
Lemma count_zero ms g : ms <= 0 -> 1 <= g -> Z.to_nat (ramp_count ms g) = O.
Proof. intros H Hg. unfold ramp_count. assert ((ms + g - 1) / g < 1) by (apply Z.div_lt_upper_bound; lia). lia. Qed.
Lemma count_next ms g : 0 < ms -> 1 <= g -> Z.to_nat (ramp_count ms g) = S (Z.to_nat (ramp_count (ms - g) g)).
Proof.
  intros H Hg. unfold ramp_count. replace (ms + g - 1) with ((ms - 1) + 1 * g) by lia. rewrite Z.div_add by lia.
  destruct (Z_le_gt_dec g (ms - 1)) as [L | L].
  - replace (ms - g + g - 1) with (ms - 1) by lia. pose proof (Z.div_pos (ms - 1) g ltac:(lia) ltac:(lia)). lia.
  - rewrite Z.div_small by lia. assert ((ms - g + g - 1) / g < 1) by (apply Z.div_lt_upper_bound; lia). lia.
Qed.
Lemma value_shift a s i : ramp_value (fadd a s) s i = ramp_value a s (S i).
Proof. unfold ramp_value. induction i as [| i IH]; [reflexivity |]. exact (f_equal (fun x => fadd x s) IH). Qed.
Lemma ramp_unfold q s goal rt g : 1 <= g -> forall n t a left due,
  (let '(o, r') := ramp_tick q t (mkRamp a s goal left rt g due) in o :: ramp_spec q r' (repeat Next n)) =
  map (out_at q t g a s) (seq 0 (Nat.min (S n) (Z.to_nat (ramp_count left g)))) ++
  (if Nat.leb (Z.to_nat (ramp_count left g)) n then [(t + Z.of_nat (Z.to_nat (ramp_count left g)) * (g * q), O, [EF goal])] else []).
Proof.
  intros Hg n. induction n as [| n IH]; intros t a left due; unfold ramp_tick; cbn [r_left r_value r_step r_goal r_grain r_time r_due];
  destruct (Z.leb_spec left 0) as [L | L].
  - rewrite (count_zero left g L Hg). cbn [repeat ramp_spec Nat.min seq map app Nat.leb]. replace (t + Z.of_nat 0 * (g * q)) with t by lia. reflexivity.
  - rewrite (count_next left g L Hg). cbn [repeat ramp_spec Nat.min seq map app Nat.leb]. unfold out_at. replace (t + Z.of_nat 0 * (g * q)) with t by lia. reflexivity.
  - rewrite (count_zero left g L Hg), idle_nothing by reflexivity. cbn [Nat.min seq map app Nat.leb]. replace (t + Z.of_nat 0 * (g * q)) with t by lia. reflexivity.
  - rewrite (count_next left g L Hg). set (K := Z.to_nat (ramp_count (left - g) g)). cbn [repeat ramp_spec ramp_step r_due].
    specialize (IH (t + g * q) (fadd a s) (left - g) (Some (t + g * q))). fold K in IH.
    change (Nat.min (S (S n)) (S K)) with (S (Nat.min (S n) K)). cbn [seq map app]. rewrite <- seq_shift, map_map.
    match goal with |- ?x :: ?y = ?x' :: ?y' => assert (EX : x = x') by (unfold out_at; replace (t + Z.of_nat 0 * (g * q)) with t by lia; reflexivity); rewrite EX; f_equal end.
    destruct (ramp_tick q (t + g * q) _) as [o r'] eqn:HT. cbn [app]. rewrite IH. f_equal.
    + apply map_ext. intros i. unfold out_at. rewrite value_shift. replace (t + Z.of_nat (S i) * (g * q)) with (t + g * q + Z.of_nat i * (g * q)) by lia. reflexivity.
    + cbn [Nat.leb]. destruct (Nat.leb K n); [| reflexivity]. replace (t + Z.of_nat (S K) * (g * q)) with (t + g * q + Z.of_nat K * (g * q)) by lia. reflexivity.
Qed.
Lemma ramp_whole q r t v ms n : 1 <= r_grain r ->
  ramp_spec q r (At t (To v ms) :: repeat Next n) = whole_ramp q t (r_value r) v ms (r_grain r) n.
Proof.
  intros Hg. cbn [ramp_spec ramp_step]. unfold ramp_to.
  pose proof (ramp_unfold q (step_to (r_value r) v ms (r_grain r)) v 0 (r_grain r) Hg n t (r_value r) ms (r_due r)) as H.
  destruct (ramp_tick q t _) as [o r']. exact H.
Qed.
Lemma grain_pos q l : forall r, 1 <= r_grain r -> 1 <= r_grain (ramp_after q r l).
Proof.
  induction l as [| e l IH]; intros r Hg; [exact Hg |]. unfold ramp_after. cbn [fold_left]. apply IH.
  destruct e as [t [v ms | v | | v | ms | ms] |]; unfold ramp_step, ramp_tick, ramp_to, grain_of; cbn [r_left r_due];
    repeat match goal with |- context [if ?b then _ else _] => destruct b eqn:? | |- context [match r_due r with _ => _ end] => destruct (r_due r) end; cbn [snd r_grain]; lia.
Qed.
Lemma start_grain k g : 1 <= r_grain (ramp_start k g).
Proof. unfold ramp_start, grain_of; cbn [r_grain]. destruct (Z.leb_spec g 0); lia. Qed.
