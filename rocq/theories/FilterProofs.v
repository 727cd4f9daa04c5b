(** The runs of lop~.pd, hip~.pd and bp~.pd, messages. *)
From Verif Require Import PatchProofs PatchProofs2 PatchProofs4 FilterSpec.
From Coq Require Import Lia.
Open Scope Z_scope.

Ltac normf := cbv -[feqb fltb fleb fadd fsub fmul fdiv fmax fmin of_int fone fzero narrow widen float_bits e_nan e_sr e_lib e_pow e_atan2
                   ms_to_samples to_u32 to_int c_div random_next random_value Bnearbyint unop_value switch_outlet Z.add Z.sub Z.mul enqueue drop_node pending log runs exec
                   two_pi decimal].
Ltac one_stepf facts := eapply runs_step; [normf; repeat (progress facts; normf); reflexivity | tidy].
Ltac runf facts := tidy; repeat (one_stepf facts); try (exact (runs_nil _ _ _ _)).

(** ** lop~ *)
Definition lop_nodes (x m : f32) : list prim :=
  [PPass; PPass; PVar (EF x); PPass; PPass; PPass; PPass; PPass; PBox [[TE (word "samplerate")]]; PSystem;
   PBin MULTIPLY m; PPass; PPass; PPass; PBinK DIVIDE fzero; PBox [[TE (EF two_pi); TArg 0]]; PPass; PPass;
   PPass; PPass; PPass; PBin MIN fone; PBin MAX fzero; PPass; PPass; PSeq [CA; CA]; PSeq [CA; CA]; PBinK SUBTRACT fone].
Definition lop_inv (E : env) (_ : unit) (w : world) : Prop :=
  exists x s, w = mkWorld (lop_nodes x (quot two_pi (rate E))) [] s.
Lemma lop_load E fc : let fp := flatten (lop_ctl fc) 0 in
  runs E fp 0 (boot fp) (load_tasks fp) (mkWorld (lop_nodes fc (quot two_pi (rate E))) [] (lop_sends (rate E) (0, fc))).
Proof. cbv zeta. normf. runf consts. Qed.
Lemma lop_plays E fc l : sends E (lop_ctl fc) (map cutoff_event l) (lop_sends (rate E) (0, fc) ++ flat_map (lop_sends (rate E)) l).
Proof.
  destruct (simulate E (flatten (lop_ctl fc) 0) unit _ cutoff_event (fun _ => flat_map (lop_sends (rate E))) (lop_inv E) (fun _ _ => True))
    with (s := tt) (l := l) (w := mkWorld (lop_nodes fc (quot two_pi (rate E))) [] (lop_sends (rate E) (0, fc)))
    as (w & Hp & Hs); [reflexivity | | exact Logic.I | exists fc; eexists; reflexivity | ].
  2: { eexists _, w. split; [apply lop_load |]. split; [exact Hp | exact Hs]. }
  intros v [t x] l' w _ (y & s & ->).
  eexists tt, (lop_sends (rate E) (t, x)), _. split; [apply plays_one; normf; runf consts |].
  split; [exists x; eexists; reflexivity |]. split; [cbn [sent]; rewrite ?log_log; reflexivity |]. split; [reflexivity | exact Logic.I].
Qed.

(** ** hip~ *)
Definition hip_nodes (x d : f32) : list prim :=
  [PBinK ADD fone; PBinK MULTIPLY (decimal 5 1); PPass; PBox [[TE (whole 1); TArg 0]]; PBinK SUBTRACT fzero; PPass; PPass;
   PBin MIN fone; PBin MAX fzero; PPass; PPass; PPass; PPass; PVar (EF x); PPass; PPass; PPass; PSeq [CA; CA];
   PSeq [CA; CA]; PPass; PPass; PBinK MULTIPLY (of_int (-1)); PBinK MAX fone; PPass; PPass; PBox [[TE (word "samplerate")]];
   PSystem; PBinK MULTIPLY two_pi; PBin DIVIDE d].
Definition hip_inv (E : env) (_ : unit) (w : world) : Prop := exists x s, w = mkWorld (hip_nodes x (rate E)) [] s.
Lemma hip_load E fc : let fp := flatten (hip_ctl fc) 0 in
  runs E fp 0 (boot fp) (load_tasks fp) (mkWorld (hip_nodes fc (rate E)) [] (hip_sends (rate E) (0, fc))).
Proof. cbv zeta. normf. runf consts. Qed.
Lemma hip_plays E fc l : sends E (hip_ctl fc) (map cutoff_event l) (hip_sends (rate E) (0, fc) ++ flat_map (hip_sends (rate E)) l).
Proof.
  destruct (simulate E (flatten (hip_ctl fc) 0) unit _ cutoff_event (fun _ => flat_map (hip_sends (rate E))) (hip_inv E) (fun _ _ => True))
    with (s := tt) (l := l) (w := mkWorld (hip_nodes fc (rate E)) [] (hip_sends (rate E) (0, fc)))
    as (w & Hp & Hs); [reflexivity | | exact Logic.I | exists fc; eexists; reflexivity | ].
  2: { eexists _, w. split; [apply hip_load |]. split; [exact Hp | exact Hs]. }
  intros v [t x] l' w _ (y & s & ->).
  eexists tt, (hip_sends (rate E) (t, x)), _. split; [apply plays_one; normf; runf consts |].
  split; [exists x; eexists; reflexivity |]. split; [cbn [sent]; rewrite ?log_log; reflexivity |]. split; [reflexivity | exact Logic.I].
Qed.

(** ** bp~ *)
Definition bp_nodes (sr fc q qm c wm r g : f32) : list prim :=
  [PPass; PPass; PBin DIVIDE sr; PPass; PPass; PBox [[TE (word "samplerate")]]; PSystem; PPass;
   PVar (EF fc); PPass; PPass; PPass; PBinK MULTIPLY two_pi; PPass; PVar (EF q); PPass; PPass; PPass; PSeq [CA; CA; CA];
   PBin DIVIDE qm; PBinK MULTIPLY (of_int (-1)); PBinK ADD fone; PUn COS; PBinK MULTIPLY (of_int 2);
   PBin MULTIPLY c; PSeq [CB; CA]; PBinK MULTIPLY (of_int (-1)); PBinK MULTIPLY (of_int (-1)); PBinK MULTIPLY (of_int (-1));
   PBinK MULTIPLY (of_int 2); PBin MULTIPLY wm; PSeq [CA; CA; CA]; PBinK POW (of_int 2); PBin ADD r;
   PBin MULTIPLY g; PSeq [CA; CA; CA]; PBinK MAX (decimal 1 3); PBinK MIN fone; PSeq [CA; CA; CA]; PPass; PPass; PPass].
Definition bp_inv (E : env) (v : f32 * f32) (w : world) : Prop :=
  exists c wm r g s, w = mkWorld (bp_nodes (rate E) (fst v) (snd v) (fmax (snd v) (decimal 1 3)) c wm r g) [] s.
Lemma bp_load E fc q : let fp := flatten (bp_ctl fc q) 0 in
  exists c wm r g, runs E fp 0 (boot fp) (load_tasks fp) (mkWorld (bp_nodes (rate E) fc q (fmax q (decimal 1 3)) c wm r g) [] (bp_sends E 0 fc q)).
Proof. cbv zeta. do 4 eexists. normf. runf consts. Qed.
Lemma bp_plays E fc q l : sends E (bp_ctl fc q) (map bp_event l) (bp_sends E 0 fc q ++ bp_spec E fc q l).
Proof.
  destruct (bp_load E fc q) as (c & wm & r & g & Hl).
  destruct (simulate E (flatten (bp_ctl fc q) 0) (f32 * f32) _ bp_event (fun v => bp_spec E (fst v) (snd v)) (bp_inv E) (fun _ _ => True))
    with (s := (fc, q)) (l := l) (w := mkWorld (bp_nodes (rate E) fc q (fmax q (decimal 1 3)) c wm r g) [] (bp_sends E 0 fc q))
    as (w & Hp & Hs); [reflexivity | | exact Logic.I | do 5 eexists; reflexivity | ].
  2: { eexists _, w. split; [exact Hl |]. split; [exact Hp | exact Hs]. }
  clear. intros [f0 q0] [t i] l' w _ (c & wm & r & g & s & ->). cbn [fst snd]. destruct i as [x | x].
  - eexists (x, q0), (bp_sends E t x q0), _. split; [apply plays_one; normf; runf consts |].
    split; [do 5 eexists; reflexivity |]. split; [cbn [sent]; rewrite ?log_log; reflexivity |]. split; [reflexivity | exact Logic.I].
  - eexists (f0, x), (bp_sends E t f0 x), _. split; [apply plays_one; normf; runf consts |].
    split; [do 5 eexists; reflexivity |]. split; [cbn [sent]; rewrite ?log_log; reflexivity |]. split; [reflexivity | exact Logic.I].
Qed.
