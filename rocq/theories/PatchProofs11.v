(** The MIDI output objects, pipe. *)
From Verif Require Import PatchProofs PatchProofs2 PatchProofs3 PatchProofs4 PatchProofs5 PatchProofs7 PatchProofs9 PatchProofs10 PatchSpec3 Float32Facts.
From Coq Require Import Lia Reals Lra.
From Flocq Require Import Core.
Open Scope Z_scope.

Lemma fmin0 : of_int 0 = fzero. Proof. reflexivity. Qed.
Lemma int_sub1 z : Z.abs z <= 2 ^ 24 -> 1 <= z -> fsub (of_int z) (of_int 1) = of_int (z - 1).
Proof.
  intros Hz H1. destruct (of_int_exact z Hz) as [A1 A2]. destruct (of_int_exact 1) as [B1 B2]; [lia |].
  destruct (of_int_exact (z - 1)) as [C1 C2]; [lia |].
  pose proof (Bminus_correct 24 128 _ _ mode_NE (of_int z) (of_int 1) A2 B2) as H.
  rewrite A1, B1, <- minus_IZR, <- C1 in H.
  rewrite round_generic in H; [| apply valid_rnd_N | apply generic_format_B2R].
  rewrite Rlt_bool_true in H; [| apply (abs_B2R_lt_emax 24 128)].
  destruct H as (H1' & H2' & H3').
  apply of_int_unique; [lia | exact H2' | unfold fsub; rewrite H1', C1; reflexivity |].
  intros Hz0. assert (z = 1) by lia. subst z. reflexivity.
Qed.
Lemma fmax_int0 z : 0 <= z <= 2 ^ 24 -> fmax (of_int z) fzero = of_int z.
Proof.
  intros Hz. destruct (of_int_exact z) as [A1 A2]; [lia |]. unfold fmax.
  replace (is_nan (of_int z)) with false by (destruct (of_int z); try discriminate A2; reflexivity). cbn [is_nan fzero].
  rewrite (of_int_fltb z 0) || rewrite <- fmin0. 
  all: try lia.
  rewrite (of_int_fltb z 0) by lia. destruct (Z.ltb_spec z 0); [lia | reflexivity].
Qed.
Lemma midi_chan c : 0 <= c <= 2 ^ 24 -> fmax (fsub (of_int c) (of_int 1)) fzero = of_int (Z.max (c - 1) 0).
Proof.
  intros Hc. destruct (Z.eq_dec c 0) as [-> | N]; [vm_compute; reflexivity |].
  rewrite int_sub1 by lia. rewrite fmax_int0 by lia. f_equal. lia.
Qed.
(** ** noteout, polytouchout, ctlout *)
Local Opaque Z.max.
Definition f_nodes' (x : f32) : list prim := [PVar (EF x); PPass; PPass; PPass].
Ltac finish Hl := (split; [constructor | split; [first [reflexivity | cbn; now rewrite log_nil] | split; [reflexivity | exact Hl]]]).
Definition noteout_nodes (k x y : f32) (c : Z) : list prim :=
  [PPack [EF x; EF y; EF (of_int c)]; PPass; PPass; PPass; PPass] ++ f_nodes' k ++ [PPass; PBinK SUBTRACT (of_int 1); PBinK MAX fzero].
Inductive noteout_inv : f32 * Z -> world -> Prop :=
| noteout_i k x y c s : noteout_inv (y, c) (mkWorld (noteout_nodes k x y (Z.max (c - 1) 0)) [] s).
Lemma noteout_sends E K l : 0 <= K <= 2 ^ 24 -> Forall out3_ok l ->
  sends E (noteout_pd (of_int K)) (map out3_event l) (out3_spec (of_int 0) K l).
Proof.
  intros HK Hok. pose proof (midi_chan K HK) as Hc.
  assert (Hload : let fp := flatten (noteout_pd (of_int K)) 0 in
    runs E fp 0 (boot fp) (load_tasks fp) (mkWorld (noteout_nodes (of_int K) (of_int 0) (of_int 0) (Z.max (K - 1) 0)) [] [])).
  { cbv zeta. unfold noteout_nodes. norm_in Hc. norm. run ltac:(rewrite Hc). }
  cbv zeta in Hload.
  destruct (simulate E (flatten (noteout_pd (of_int K)) 0) (f32 * Z) _ out3_event (fun s => out3_spec (fst s) (snd s)) noteout_inv (fun _ => Forall out3_ok))
    with (s := (of_int 0, K)) (l := l) (w := mkWorld (noteout_nodes (of_int K) (of_int 0) (of_int 0) (Z.max (K - 1) 0)) [] [])
    as (w & Hp & Hs); [reflexivity | | exact Hok | exact (noteout_i _ _ _ _ _) | exact (sends_loaded E _ _ _ _ w Hload Hp Hs)].
  clear Hok Hload Hc HK. intros v [t i] l' w Hok Hi; destruct Hi as [k x y c s].
  pose proof (Forall_inv Hok) as Hx. pose proof (Forall_inv_tail Hok) as Hl. cbn [out3_ok snd] in Hx. unfold out3_ok in Hx. cbn [snd] in Hx.
  destruct i as [x' | y' | c']; cbn [out3_event out3_spec fst snd]; unfold midi_channel, whole.
  - eexists (y, c), [_], _. split; [apply plays_one; norm; run idtac |]. finish Hl.
  - eexists (y', c), [], _. split; [apply plays_one; norm; run idtac |]. finish Hl.
  - pose proof (midi_chan c' Hx) as Hc. eexists (y, c'), [], _. split.
    + apply plays_one. norm_in Hc. norm. run ltac:(rewrite Hc).
    + finish Hl.
Qed.
Definition polytouchout_nodes (k x y : f32) (c : Z) : list prim :=
  [PPack [EF x; EF y; EF (of_int c)]; PPass] ++ f_nodes' k ++ [PPass; PBinK SUBTRACT (of_int 1); PBinK MAX fzero; PPass; PPass; PPass].
Inductive polytouchout_inv : f32 * Z -> world -> Prop :=
| polytouchout_i k x y c s : polytouchout_inv (y, c) (mkWorld (polytouchout_nodes k x y (Z.max (c - 1) 0)) [] s).
Lemma polytouchout_sends E K l : 0 <= K <= 2 ^ 24 -> Forall out3_ok l ->
  sends E (polytouchout_pd (of_int K)) (map out3_event l) (out3_spec (of_int 0) K l).
Proof.
  intros HK Hok. pose proof (midi_chan K HK) as Hc.
  assert (Hload : let fp := flatten (polytouchout_pd (of_int K)) 0 in
    runs E fp 0 (boot fp) (load_tasks fp) (mkWorld (polytouchout_nodes (of_int K) (of_int 0) (of_int 0) (Z.max (K - 1) 0)) [] [])).
  { cbv zeta. unfold polytouchout_nodes. norm_in Hc. norm. run ltac:(rewrite Hc). }
  cbv zeta in Hload.
  destruct (simulate E (flatten (polytouchout_pd (of_int K)) 0) (f32 * Z) _ out3_event (fun s => out3_spec (fst s) (snd s)) polytouchout_inv (fun _ => Forall out3_ok))
    with (s := (of_int 0, K)) (l := l) (w := mkWorld (polytouchout_nodes (of_int K) (of_int 0) (of_int 0) (Z.max (K - 1) 0)) [] [])
    as (w & Hp & Hs); [reflexivity | | exact Hok | exact (polytouchout_i _ _ _ _ _) | exact (sends_loaded E _ _ _ _ w Hload Hp Hs)].
  clear Hok Hload Hc HK. intros v [t i] l' w Hok Hi; destruct Hi as [k x y c s].
  pose proof (Forall_inv Hok) as Hx. pose proof (Forall_inv_tail Hok) as Hl. cbn [out3_ok snd] in Hx. unfold out3_ok in Hx. cbn [snd] in Hx.
  destruct i as [x' | y' | c']; cbn [out3_event out3_spec fst snd]; unfold midi_channel, whole.
  - eexists (y, c), [_], _. split; [apply plays_one; norm; run idtac |]. finish Hl.
  - eexists (y', c), [], _. split; [apply plays_one; norm; run idtac |]. finish Hl.
  - pose proof (midi_chan c' Hx) as Hc. eexists (y, c'), [], _. split.
    + apply plays_one. norm_in Hc. norm. run ltac:(rewrite Hc).
    + finish Hl.
Qed.
Definition ctlout_nodes (k x y : f32) (c : Z) : list prim :=
  [PPack [EF x; EF y; EF (of_int c)]; PPass; PPass; PPass; PPass] ++ f_nodes' k ++ [PPass] ++ f_nodes' y ++
  [PSeq [CB; CB]; PBinK SUBTRACT (of_int 1); PBinK MAX fzero].
Inductive ctlout_inv : f32 * Z -> world -> Prop :=
| ctlout_i k x y c s : ctlout_inv (y, c) (mkWorld (ctlout_nodes k x y (Z.max (c - 1) 0)) [] s).
Lemma ctlout_sends E k0 K l : 0 <= K <= 2 ^ 24 -> Forall out3_ok l ->
  sends E (ctlout_pd k0 (of_int K)) (map out3_event l) (out3_spec k0 K l).
Proof.
  intros HK Hok. pose proof (midi_chan K HK) as Hc.
  assert (Hload : let fp := flatten (ctlout_pd k0 (of_int K)) 0 in
    runs E fp 0 (boot fp) (load_tasks fp) (mkWorld (ctlout_nodes (of_int K) (of_int 0) k0 (Z.max (K - 1) 0)) [] [])).
  { cbv zeta. unfold ctlout_nodes. norm_in Hc. norm. run ltac:(rewrite Hc). }
  cbv zeta in Hload.
  destruct (simulate E (flatten (ctlout_pd k0 (of_int K)) 0) (f32 * Z) _ out3_event (fun s => out3_spec (fst s) (snd s)) ctlout_inv (fun _ => Forall out3_ok))
    with (s := (k0, K)) (l := l) (w := mkWorld (ctlout_nodes (of_int K) (of_int 0) k0 (Z.max (K - 1) 0)) [] [])
    as (w & Hp & Hs); [reflexivity | | exact Hok | exact (ctlout_i _ _ _ _ _) | exact (sends_loaded E _ _ _ _ w Hload Hp Hs)].
  clear Hok Hload Hc HK. intros v [t i] l' w Hok Hi; destruct Hi as [k x y c s].
  pose proof (Forall_inv Hok) as Hx. pose proof (Forall_inv_tail Hok) as Hl. cbn [out3_ok snd] in Hx. unfold out3_ok in Hx. cbn [snd] in Hx.
  destruct i as [x' | y' | c']; cbn [out3_event out3_spec fst snd]; unfold midi_channel, whole.
  - eexists (y, c), [_], _. split; [apply plays_one; norm; run idtac |]. finish Hl.
  - eexists (y', c), [], _. split; [apply plays_one; norm; run idtac |]. finish Hl.
  - pose proof (midi_chan c' Hx) as Hc. eexists (y, c'), [], _. split.
    + apply plays_one. norm_in Hc. norm. run ltac:(rewrite Hc).
    + finish Hl.
Qed.

(** ** bendout, pgmout, touchout *)
Lemma bend_value x : - 8192 <= x <= 2 ^ 23 -> fadd (of_int x) (of_int 8192) = of_int (x + 8192).
Proof.
  intros Hx. destruct (of_int_exact x) as [A1 A2]; [lia |]. destruct (of_int_exact 8192) as [B1 B2]; [lia |].
  destruct (fadd_exact (of_int x) (of_int 8192) (x + 8192) 0 A2 B2) as [C1 C2]; [rewrite A1, B1, plus_IZR; cbn; lra | lia | lia |].
  apply of_int_unique; [lia | exact C2 | rewrite C1; cbn; lra |].
  intros H. assert (x = - 8192) by lia. subst. reflexivity.
Qed.
Lemma pgm_value x : - 8192 <= x <= 2 ^ 23 -> fmax (fsub (of_int x) (of_int 1)) fzero = of_int (Z.max (x - 1) 0).
Proof.
  intros Hx. destruct (Z_lt_le_dec x 0) as [N | P]; [| apply midi_chan; lia].
  destruct (of_int_exact x) as [A1 A2]; [lia |]. destruct (of_int_exact 1) as [B1 B2]; [lia |]. destruct (of_int_exact (x - 1)) as [C1 C2]; [lia |].
  pose proof (Bminus_correct 24 128 _ _ mode_NE (of_int x) (of_int 1) A2 B2) as H.
  rewrite A1, B1, <- minus_IZR, <- C1 in H.
  rewrite round_generic in H; [| apply valid_rnd_N | apply generic_format_B2R].
  rewrite Rlt_bool_true in H; [| apply (abs_B2R_lt_emax 24 128)].
  destruct H as (H1 & H2 & _). fold (fsub (of_int x) (of_int 1)) in H1, H2.
  replace (Z.max (x - 1) 0) with 0 by lia. unfold fmax.
  replace (is_nan (fsub (of_int x) (of_int 1))) with false by (destruct (fsub (of_int x) (of_int 1)); try discriminate H2; reflexivity).
  cbn [is_nan fzero]. unfold fltb. rewrite Bltb_correct by (exact H2 || reflexivity).
  rewrite H1, C1. change (B2R fzero) with 0%R. rewrite Rlt_bool_true by (apply IZR_lt; lia). reflexivity.
Qed.

Definition bendout_nodes (k x : f32) (c : Z) : list prim := [PPack [EF x; EF (of_int c)]; PPass] ++ f_nodes' k ++ [PPass; PPass; PPass; PBinK ADD (of_int 8192); PBinK SUBTRACT (of_int 1); PBinK MAX fzero].
Inductive bendout_inv : Z -> world -> Prop :=
| bendout_i k x c s : bendout_inv c (mkWorld (bendout_nodes k x (Z.max (c - 1) 0)) [] s).
Lemma bendout_sends E K l : 0 <= K <= 2 ^ 24 -> Forall out2_ok l ->
  sends E (bendout_pd (of_int K)) (map out2_event l) (out2_spec (fun x => x + 8192) K l).
Proof.
  intros HK Hok. pose proof (midi_chan K HK) as Hc.
  assert (Hload : let fp := flatten (bendout_pd (of_int K)) 0 in
    runs E fp 0 (boot fp) (load_tasks fp) (mkWorld (bendout_nodes (of_int K) (of_int 0) (Z.max (K - 1) 0)) [] [])).
  { cbv zeta. unfold bendout_nodes. norm_in Hc. norm. run ltac:(rewrite Hc). }
  cbv zeta in Hload.
  destruct (simulate E (flatten (bendout_pd (of_int K)) 0) Z _ out2_event (out2_spec (fun x => x + 8192)) bendout_inv (fun _ => Forall out2_ok))
    with (s := K) (l := l) (w := mkWorld (bendout_nodes (of_int K) (of_int 0) (Z.max (K - 1) 0)) [] [])
    as (w & Hp & Hs); [reflexivity | | exact Hok | exact (bendout_i _ _ _ _) | exact (sends_loaded E _ _ _ _ w Hload Hp Hs)].
  clear Hok Hload Hc HK. intros v [t i] l' w Hok Hi; destruct Hi as [k x c s].
  pose proof (Forall_inv Hok) as Hx. pose proof (Forall_inv_tail Hok) as Hl. unfold out2_ok in Hx. cbn [snd] in Hx.
  destruct i as [x' | c']; cbn [out2_event out2_spec]; unfold midi_channel, whole.
  - pose proof (bend_value x' Hx) as Hv. norm_in Hv. eexists c, [_], _. split; [apply plays_one; norm; run ltac:(rewrite Hv) |]. finish Hl.
  - pose proof (midi_chan c' Hx) as Hc. eexists c', [], _. split.
    + apply plays_one. norm_in Hc. norm. run ltac:(rewrite Hc).
    + finish Hl.
Qed.

Definition pgmout_nodes (k x : f32) (c : Z) : list prim := [PPass; PPack [EF x; EF (of_int c)]; PPass] ++ f_nodes' k ++ [PPass; PPass; PBinK SUBTRACT (of_int 1); PBinK MAX fzero; PBinK SUBTRACT (of_int 1); PBinK MAX fzero].
Inductive pgmout_inv : Z -> world -> Prop :=
| pgmout_i k x c s : pgmout_inv c (mkWorld (pgmout_nodes k x (Z.max (c - 1) 0)) [] s).
Lemma pgmout_sends E K l : 0 <= K <= 2 ^ 24 -> Forall out2_ok l ->
  sends E (pgmout_pd (of_int K)) (map out2_event l) (out2_spec (fun x => Z.max (x - 1) 0) K l).
Proof.
  intros HK Hok. pose proof (midi_chan K HK) as Hc.
  assert (Hload : let fp := flatten (pgmout_pd (of_int K)) 0 in
    runs E fp 0 (boot fp) (load_tasks fp) (mkWorld (pgmout_nodes (of_int K) (of_int 0) (Z.max (K - 1) 0)) [] [])).
  { cbv zeta. unfold pgmout_nodes. norm_in Hc. norm. run ltac:(rewrite Hc). }
  cbv zeta in Hload.
  destruct (simulate E (flatten (pgmout_pd (of_int K)) 0) Z _ out2_event (out2_spec (fun x => Z.max (x - 1) 0)) pgmout_inv (fun _ => Forall out2_ok))
    with (s := K) (l := l) (w := mkWorld (pgmout_nodes (of_int K) (of_int 0) (Z.max (K - 1) 0)) [] [])
    as (w & Hp & Hs); [reflexivity | | exact Hok | exact (pgmout_i _ _ _ _) | exact (sends_loaded E _ _ _ _ w Hload Hp Hs)].
  clear Hok Hload Hc HK. intros v [t i] l' w Hok Hi; destruct Hi as [k x c s].
  pose proof (Forall_inv Hok) as Hx. pose proof (Forall_inv_tail Hok) as Hl. unfold out2_ok in Hx. cbn [snd] in Hx.
  destruct i as [x' | c']; cbn [out2_event out2_spec]; unfold midi_channel, whole.
  - pose proof (pgm_value x' Hx) as Hv. norm_in Hv. eexists c, [_], _. split; [apply plays_one; norm; run ltac:(rewrite Hv) |]. finish Hl.
  - pose proof (midi_chan c' Hx) as Hc. eexists c', [], _. split.
    + apply plays_one. norm_in Hc. norm. run ltac:(rewrite Hc).
    + finish Hl.
Qed.

Definition touchout_nodes (k x : f32) (c : Z) : list prim := [PPack [EF x; EF (of_int c)]; PPass] ++ f_nodes' k ++ [PPass; PPass; PPass; PBinK SUBTRACT (of_int 1); PBinK MAX fzero].
Inductive touchout_inv : Z -> world -> Prop :=
| touchout_i k x c s : touchout_inv c (mkWorld (touchout_nodes k x (Z.max (c - 1) 0)) [] s).
Lemma touchout_sends E K l : 0 <= K <= 2 ^ 24 -> Forall out2_ok l ->
  sends E (touchout_pd (of_int K)) (map out2_event l) (out2_spec (fun x => x) K l).
Proof.
  intros HK Hok. pose proof (midi_chan K HK) as Hc.
  assert (Hload : let fp := flatten (touchout_pd (of_int K)) 0 in
    runs E fp 0 (boot fp) (load_tasks fp) (mkWorld (touchout_nodes (of_int K) (of_int 0) (Z.max (K - 1) 0)) [] [])).
  { cbv zeta. unfold touchout_nodes. norm_in Hc. norm. run ltac:(rewrite Hc). }
  cbv zeta in Hload.
  destruct (simulate E (flatten (touchout_pd (of_int K)) 0) Z _ out2_event (out2_spec (fun x => x)) touchout_inv (fun _ => Forall out2_ok))
    with (s := K) (l := l) (w := mkWorld (touchout_nodes (of_int K) (of_int 0) (Z.max (K - 1) 0)) [] [])
    as (w & Hp & Hs); [reflexivity | | exact Hok | exact (touchout_i _ _ _ _) | exact (sends_loaded E _ _ _ _ w Hload Hp Hs)].
  clear Hok Hload Hc HK. intros v [t i] l' w Hok Hi; destruct Hi as [k x c s].
  pose proof (Forall_inv Hok) as Hx. pose proof (Forall_inv_tail Hok) as Hl. unfold out2_ok in Hx. cbn [snd] in Hx.
  destruct i as [x' | c']; cbn [out2_event out2_spec]; unfold midi_channel, whole.
  -  eexists c, [_], _. split; [apply plays_one; norm; run ltac:(idtac) |]. finish Hl.
  - pose proof (midi_chan c' Hx) as Hc. eexists c', [], _. split.
    + apply plays_one. norm_in Hc. norm. run ltac:(rewrite Hc).
    + finish Hl.
Qed.

(** ** pipe *)
Definition pipe_queue (q : list (Z * msg)) : list (Z * nat * msg) := map (fun e => (fst e, 3%nat, snd e)) q.
Lemma pipe_pending q : pending 3 (pipe_queue q) = List.length q.
Proof. induction q as [| e q IH]; [reflexivity |]. cbn. f_equal. exact IH. Qed.
Lemma pipe_enqueue t m q : enqueue (t, 3%nat, m) (pipe_queue q) = pipe_queue (by_time (t, m) q).
Proof.
  induction q as [| [u x] q IH]; [reflexivity |]. cbn [pipe_queue map enqueue by_time fst snd].
  destruct (t <? u); [reflexivity |]. cbn [map]. f_equal. exact IH.
Qed.
Definition plain_msg (m : msg) : Prop := is_word "flush" m = false /\ is_word "clear" m = false.
Definition pipe_ins_ok (E : env) (samples : f32 -> Z) (l : list (moment pipe_in)) : Prop :=
  Forall (fun e => match e with
                   | At _ (PMsg m) => plain_msg m
                   | At _ (PTime ms) => ms_to_samples (e_sr E) ms = Ok (samples ms)
                   | Next => True end) l.
Inductive pipe_inv : Z * list (Z * msg) -> world -> Prop :=
| pipe_i d q s : pipe_inv (d, q) (mkWorld [PPass; PPass; PPass; PDelay d] (pipe_queue q) s).
Local Opaque by_time pipe_queue.
Lemma pipe_sends E samples d l : pipe_ins_ok E samples l -> pipe_ok samples d [] l ->
  sends E (pipe_pd d) (map pipe_event l) (pipe_spec samples d [] l).
Proof.
  intros Hi Hok.
  destruct (simulate E (flatten (pipe_pd d) 0) (Z * list (Z * msg)) _ pipe_event (fun s => pipe_spec samples (fst s) (snd s)) pipe_inv
              (fun s l => pipe_ok samples (fst s) (snd s) l /\ pipe_ins_ok E samples l))
    with (s := (d, @nil (Z * msg))) (l := l) (w := boot (flatten (pipe_pd d) 0))
    as (w & Hp & Hs); [reflexivity | | exact (conj Hok Hi) | exact (pipe_i d [] []) | refine (sends_of E _ _ _ w _ Hp Hs); reflexivity].
  clear Hok Hi l. intros v e l w [Hok Hi] HI; destruct HI as [d' q s].
  pose proof (Forall_inv Hi) as Hx. pose proof (Forall_inv_tail Hi) as Hl. fold (pipe_ins_ok E samples l) in Hl. cbv beta in Hx.
  destruct e as [t [m | ms] |]; cbn [pipe_event pipe_spec pipe_ok fst snd] in Hok |- *; destruct Hok as [Hlen Hok].
  - assert (Hpend : Nat.ltb (pending 3 (pipe_queue q)) 8 = true).
    { apply Nat.ltb_lt. rewrite pipe_pending. destruct l; destruct Hok as [Hlen' _]; rewrite by_time_length in Hlen'; lia. }
    pose proof (pipe_enqueue (t + d') m q) as Henq. destruct Hx as [Hf Hc]. norm_in Hpend. norm_in Henq. norm_in Hf. norm_in Hc.
    eexists (d', by_time (t + d', m) q), [], _.
    split; [apply plays_one; norm; run ltac:(first [rewrite Hf | rewrite Hc | rewrite Hpend | rewrite Henq]) |].
    split; [constructor | split; [cbn; now rewrite log_nil | split; [reflexivity | exact (conj Hok Hl)]]].
  - eexists (samples ms, q), [], _. split; [apply plays_one; norm; run ltac:(rewrite Hx) |].
    split; [constructor | split; [cbn; now rewrite log_nil | split; [reflexivity | exact (conj Hok Hl)]]].
  - destruct q as [| [ts m] q].
    + eexists (d', []), [], _. split; [apply plays_none; reflexivity |].
      split; [constructor | split; [cbn; now rewrite log_nil | split; [reflexivity | exact (conj Hok Hl)]]].
    + eexists (d', q), [_], _. split; [eapply plays_next; [reflexivity | norm; run idtac] |].
      split; [constructor | split; [reflexivity | split; [reflexivity | exact (conj Hok Hl)]]].
Qed.
