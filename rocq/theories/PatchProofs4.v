(** MIDI input objects. *)
From Verif Require Import PatchProofs PatchProofs2 PatchProofs3 PatchSpec Float32Facts.
From Coq Require Import Lia Reals Lra.
From Flocq Require Import Core.
Open Scope Z_scope.

(** ** Whole numbers *)
Lemma of_int_feqb a b : Z.abs a <= 2 ^ 24 -> Z.abs b <= 2 ^ 24 -> feqb (of_int a) (of_int b) = (a =? b).
Proof.
  intros Ha Hb. destruct (of_int_exact a Ha) as [A1 A2]. destruct (of_int_exact b Hb) as [B1 B2].
  unfold feqb. rewrite Beqb_correct by assumption. rewrite A1, B1.
  destruct (Z.eqb_spec a b) as [-> | N]; [apply Req_bool_true; reflexivity |].
  apply Req_bool_false. intros H. apply eq_IZR in H. contradiction.
Qed.
Lemma of_int_fltb a b : Z.abs a <= 2 ^ 24 -> Z.abs b <= 2 ^ 24 -> fltb (of_int a) (of_int b) = (a <? b).
Proof.
  intros Ha Hb. destruct (of_int_exact a Ha) as [A1 A2]. destruct (of_int_exact b Hb) as [B1 B2].
  unfold fltb. rewrite Bltb_correct by assumption. rewrite A1, B1.
  destruct (Z.ltb_spec a b) as [N | N]; [apply Rlt_bool_true, IZR_lt, N | apply Rlt_bool_false, IZR_le, N].
Qed.
Lemma of_int_fleb a b : Z.abs a <= 2 ^ 24 -> Z.abs b <= 2 ^ 24 -> fleb (of_int a) (of_int b) = (a <=? b).
Proof.
  intros Ha Hb. destruct (of_int_exact a Ha) as [A1 A2]. destruct (of_int_exact b Hb) as [B1 B2].
  unfold fleb. rewrite Bleb_correct by assumption. rewrite A1, B1.
  destruct (Z.leb_spec a b) as [N | N]; [apply Rle_bool_true, IZR_le, N | apply Rle_bool_false, IZR_lt, N].
Qed.
(** A finite float with the value of a whole number and its sign. *)
Lemma of_int_unique (x : f32) z : Z.abs z <= 2 ^ 24 -> is_finite x = true -> R32 x = IZR z -> (z = 0 -> Bsign x = false) -> x = of_int z.
Proof.
  intros Hz Fx Hx H0. destruct (of_int_exact z Hz) as [A1 A2].
  apply B2R_Bsign_inj; [exact Fx | exact A2 | congruence |].
  destruct (Z.eq_dec z 0) as [-> | Nz]; [rewrite (H0 eq_refl); reflexivity |].
  destruct x as [s | s | | s m e Hb]; try discriminate Fx; [cbn in Hx; apply eq_sym, eq_IZR in Hx; contradiction |].
  destruct (of_int z) as [s' | s' | | s' m' e' Hb']; try discriminate A2; [cbn in A1; apply eq_sym, eq_IZR in A1; contradiction |].
  cbn [Bsign]. rewrite <- A1 in Hx. clear - Hx. destruct s, s'; try reflexivity; exfalso; revert Hx;
    unfold B2R, F2R, cond_Zopp; cbn [Fnum Fexp Z.opp]; pose proof (bpow_gt_0 radix2 e); pose proof (bpow_gt_0 radix2 e');
    pose proof (IZR_lt 0 (Zpos m) eq_refl); pose proof (IZR_lt 0 (Zpos m') eq_refl);
    change (IZR (Zneg m)) with (- IZR (Zpos m))%R; change (IZR (Zneg m')) with (- IZR (Zpos m'))%R;
    pose proof (Rmult_lt_0_compat _ _ H1 H); pose proof (Rmult_lt_0_compat _ _ H2 H0); intros; lra.
Qed.
Lemma of_int_fadd a b : 0 <= a -> 0 <= b -> a + b <= 2 ^ 24 -> fadd (of_int a) (of_int b) = of_int (a + b).
Proof.
  intros Ha Hb Hab. destruct (of_int_exact a) as [A1 A2]; [lia |]. destruct (of_int_exact b) as [B1 B2]; [lia |].
  destruct (fadd_exact (of_int a) (of_int b) (a + b) 0 A2 B2) as [C1 C2]; [rewrite A1, B1, plus_IZR; cbn; lra | lia | lia |].
  apply of_int_unique; [lia | exact C2 | rewrite C1; cbn; lra |].
  intros H. assert (a = 0) by lia. assert (b = 0) by lia. subst. reflexivity.
Qed.
Lemma of_int_trunc z : 0 <= z <= 2 ^ 24 -> Bnearbyint mode_ZR (of_int z) = of_int z.
Proof.
  intros Hz. destruct (of_int_exact z) as [A1 A2]; [lia |].
  destruct (Bnearbyint_correct 24 128 _ mode_ZR (of_int z)) as (B1 & B2 & B3).
  apply B2R_Bsign_inj; [congruence | exact A2 | |].
  - rewrite B1, A1. unfold round, scaled_mantissa, cexp, FIX_exp, F2R. cbn [Fnum Fexp Z.opp bpow].
    rewrite !Rmult_1_r. cbn [round_mode]. rewrite Ztrunc_IZR. reflexivity.
  - apply B3. rewrite A2 in B2. destruct (Bnearbyint mode_ZR (of_int z)); try discriminate; reflexivity.
Qed.
Lemma of_int_fmax1 z : 1 <= z <= 2 ^ 24 -> fmax (of_int z) (of_int 1) = of_int z.
Proof.
  intros Hz. destruct (of_int_exact z) as [A1 A2]; [lia |]. unfold fmax.
  replace (is_nan (of_int z)) with false by (destruct (of_int z); try discriminate A2; reflexivity).
  cbn [is_nan of_int]. change (is_nan (of_int 1)) with false. cbn iota.
  rewrite of_int_fltb by lia. destruct (Z.ltb_spec z 1); [lia | reflexivity].
Qed.

(** ** Nodes of the abstractions *)
Definition int_nodes (v : f32) (b : bool) : list prim :=
  [PPass; PVar (EF v); PPass; PPass; PPass; PPass; PPass; PIf b; PBinK GREATER_THAN fzero; PUn FLOOR; PUn CEIL; PSeq [CA; CA]].
Definition spigot_nodes (b : bool) : list prim := [PPass; PPass; PPass; PIf b].
Definition unpack3_nodes : list prim := [PPass; PSlice 2 1; PPass; PSlice 1 1; PPass; PSlice 0 1; PPass].
Definition unpack2_nodes : list prim := [PPass; PSlice 1 1; PPass; PSlice 0 1; PPass].

Lemma sends_loaded E p l o w0 w : runs E (flatten p 0) 0 (boot (flatten p 0)) (load_tasks (flatten p 0)) w0 ->
  plays E (flatten p 0) w0 l w -> sent w = o -> sends E p l o.
Proof. intros. exists w0, w. auto. Qed.

Lemma int_gt E z : 0 <= z <= 2 ^ 24 -> fltb fzero (of_int z) = true -> unop_value (e_lib E) FLOOR (of_int z) = of_int z.
Proof. intros Hz H. rewrite (floor_trunc _ _ H). apply of_int_trunc, Hz. Qed.
Lemma int_le E z : 0 <= z <= 2 ^ 24 -> fltb fzero (of_int z) = false -> unop_value (e_lib E) CEIL (of_int z) = of_int z.
Proof. intros Hz H. rewrite (ceil_trunc _ _ H). apply of_int_trunc, Hz. Qed.
Lemma int_zero z : 0 <= z <= 2 ^ 24 -> feqb (of_int z) fzero = (z =? 0).
Proof. intros H. apply (of_int_feqb z 0); lia. Qed.

(** ** notein, polytouchin *)
Definition notein_nodes (K : Z) (b g : bool) (ch : bool) : list prim :=
  unpack3_nodes ++ [PPass] ++ int_nodes (of_int K) b ++ spigot_nodes ch ++ spigot_nodes g ++ spigot_nodes g ++
  [PBinK ADD (of_int 1)] ++ spigot_nodes ch ++ [PBinK EQ fzero; PBin EQ (of_int K); PSeq [CF; CF]; PSeq [CF; CF]; PPass; PPass; PPass; PPass;
   PBinK MAX (of_int 1)].
Inductive notein_inv (K : Z) : unit -> world -> Prop :=
| notein_i b ch s : notein_inv K tt (mkWorld (notein_nodes K b (K =? 0) ch) [] s).
Lemma notein_load E K : 0 <= K <= 2 ^ 24 -> let fp := flatten (notein_pd (of_int K)) 0 in
  exists b, runs E fp 0 (boot fp) (load_tasks fp) (mkWorld (notein_nodes K b (K =? 0) false) [] []).
Proof.
  intros HK. cbv zeta. unfold notein_nodes. rewrite <- (int_zero K HK).
  destruct (fltb fzero (of_int K)) eqn:H; [pose proof (int_gt E K HK H) as Hi | pose proof (int_le E K HK H) as Hi];
  (destruct (feqb (of_int K) fzero) eqn:H0; eexists; norm; run ltac:(first [rewrite H | rewrite H0 | rewrite Hi | consts])).
Qed.
(** A channel from 0 on, compared with the argument. *)
Lemma channel_cases K c : 0 <= K -> 0 <= c ->
  (K =? 0 = true /\ c + 1 =? K = false) \/ (K =? 0 = false /\ c + 1 =? K = true) \/ (K =? 0 = false /\ c + 1 =? K = false).
Proof. intros. destruct (Z.eqb_spec K 0), (Z.eqb_spec (c + 1) K); auto. lia. Qed.
Lemma channel_facts K c : 0 <= K <= 2 ^ 24 -> 0 <= c < 2 ^ 24 ->
  fadd (of_int c) (of_int 1) = of_int (c + 1) /\ fmax (of_int (c + 1)) (of_int 1) = of_int (c + 1) /\
  feqb (of_int (c + 1)) (of_int K) = (c + 1 =? K).
Proof.
  intros HK Hc. split; [apply of_int_fadd; lia | split; [apply of_int_fmax1; lia | apply of_int_feqb; lia]].
Qed.

Definition note_ok (e : Z * (f32 * f32 * Z)) : Prop := match e with (_, (_, _, c)) => 0 <= c < 2 ^ 24 end.
Lemma log_log s a b : log (log s a) b = log s (a ++ b).
Proof. unfold log. symmetry. apply app_assoc. Qed.
Lemma notein_event E K w e :
  let fp := flatten (notein_pd (of_int K)) 0 in
  0 <= K <= 2 ^ 24 -> note_ok e -> notein_inv K tt w ->
  exists w1, plays E fp w [note_event e] w1 /\ notein_inv K tt w1 /\ sent w1 = log (sent w) (notein_spec K [e]).
Proof.
  intros fp HK Hc Hi. destruct Hi as [b ch s]. destruct e as [t [[p v] c]]. cbn [note_ok] in Hc.
  destruct (channel_facts K c HK Hc) as (Hadd & Hmax & Heq). unfold fp. clear fp.
  cbn [note_event notein_spec]. unfold on_channel, notein_nodes.
  destruct (channel_cases K c ltac:(lia) ltac:(lia)) as [[H0 H1] | [[H0 H1] | [H0 H1]]]; rewrite H1 in Heq; rewrite H0, H1; clear HK Hc;
  (eexists; split; [apply plays_one; norm; run ltac:(first [rewrite Hadd | rewrite Hmax | rewrite Heq | consts]) |]);
  (split; [rewrite <- H0; exact (notein_i K b _ _) | cbn [sent]; rewrite ?log_log; reflexivity]).
Qed.
