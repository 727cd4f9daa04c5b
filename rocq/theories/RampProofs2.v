(** line: the run of the patch. *)
From Verif Require Import PatchProofs PatchProofs2 PatchProofs3 PatchProofs4 PatchProofs7 PatchProofs8 RampSpec RampProofs.
From Coq Require Import Lia.
Open Scope Z_scope.

(** [sr], [rate]: the sample rate and samples per millisecond; [lf]: the samples left; [gs]: the samples between two steps. *)
Definition ramp_nodes (sr rate : f32) (d : Z) (m1 gm : f32) (lf gs st g steps rt goal v c : f32) : list prim :=
  [PPass; PPass; PPass; PPass; PBox [[TE (word "samplerate")]]; PSystem;
   PBinK DIVIDE (of_int 1000); PBin MULTIPLY sr; PPass; PPass; PPass;
   PSwitch [LN fzero; LS (T "stop")]; PBox [[TE (word "clear")]];
   PSeq [CA; CA]; PDelay d; PPass; PSeq [CB]; PPass;
   PSeq [CA; CA]; PBinK MAX (of_int 1); PPass; PPass;
   PBox [[TE (word "samplerate")]]; PSystem; PBinK DIVIDE (of_int 1000);
   PBin MULTIPLY rate; PVar (EF m1); PPass; PPass; PPass;
   PSeq [CA; CA]; PPass; PBin MULTIPLY sr; PBinK DIVIDE (of_int 1000);
   PVar (EF lf); PPass; PPass; PPass; PBin SUBTRACT gs;
   PBox [[TE (whole 1)]]; PPass; PPass; PSwitch [LN (of_int 0); LN (of_int 1)];
   PPass; PSeq [CB]; PPass; PSeq [CB]; PPass; PBox [[TE (whole 0)]];
   PBinK LESS_THAN_EQL fzero; PBin ADD st; PBin DIVIDE g;
   PBin DIVIDE steps; PSeq [CF; CF]; PSeq [CF; CF];
   PSeq [CB; CB]; PBin ADD st; PSeq [CA; CA]; PPass; PPass;
   PSwitch [LS (T "stop"); LS (T "set")]; PPass; PSlice 1 (-1); PPass;
   PSlice 1 (-1); PPass; PBox [[TE (whole 0)]]; PPass; PPass;
   PVar (EF rt); PPass; PPass; PPass; PBox [[TE (whole 0)]];
   PVar (EF gm); PPass; PPass; PPass; PBinK MAX fzero; PPass; PPass;
   PSwitch [LN (of_int 0)]; PPass; PSeq [CB]; PPass;
   PBox [[TE (whole 20)]]; PVar (EF c); PPass; PPass; PPass;
   PVar (EF goal); PPass; PPass; PPass; PVar (EF v); PPass; PPass; PPass;
   PSeq [CF; CB]; PBin SUBTRACT v; PSeq [CA; CA];
   PSeq [CA; CA]; PSeq [CA; CA; CB]; PSeq [CA; CA; CA];
   PSeq [CA; CA]; PSeq [CA; CA; CA]; PPass; PSlice 1 1; PPass;
   PSlice 0 1; PPass; PSeq [CB; CB; CA; CB]; PPass].
Definition ramp_queue (p : option Z) : list (Z * nat * msg) := match p with Some t => [(t, 14%nat, [EB])] | None => [] end.
Definition ramp_world (E : env) (q : Z) (r : ramp) (m1 gm lf steps c : f32) (s : list out) : world :=
  mkWorld (ramp_nodes (narrow (e_sr E)) (metro_rate E) (r_grain r * q) m1 gm lf (of_int (r_grain r * q)) (r_step r) (of_int (r_grain r)) steps
             (of_int (r_time r)) (r_goal r) (r_value r) c) (ramp_queue (r_due r)) s.

Lemma ramp_load E q k g : whole_rate (e_sr E) (1000 * q) -> 1 <= q <= 1000 -> ramp_ms q g -> 125 * q * 20 <= 2 ^ 24 ->
  let fp := flatten (line_pd k (of_int g)) 0 in
  exists m1 gm lf steps c, runs E fp 0 (boot fp) (load_tasks fp) (ramp_world E q (ramp_start k g) m1 gm lf steps c []).
Proof.
  intros Hr Hq Hg H20. cbv zeta.
  assert (Hp20 : metro_period E (of_int 20) = Ok (20 * q)) by (apply period_exact; first [exact Hr | lia]).
  pose proof (samples_exact E q 20 Hr Hq ltac:(split; lia)) as S20.
  unfold ramp_world, ramp_start, grain_of; cbn [r_value r_step r_goal r_left r_time r_grain r_due].
  destruct (Z.leb_spec g 0) as [L | L].
  - assert (g = 0) by (destruct Hg; lia). subst g. pose proof (grain_zero E) as Hsw.
    norm_in Hp20. norm_in S20. norm_in Hsw. do 5 eexists. norm. run ltac:(first [rewrite thousand | rewrite Hp20 | rewrite S20 | rewrite Hsw | queues]).
  - assert (Hpg : metro_period E (of_int g) = Ok (g * q)) by (destruct Hg; apply period_exact; first [exact Hr | nia]).
    pose proof (samples_exact E q g Hr Hq Hg) as Sg. pose proof (grain_switch E g ltac:(destruct Hg; nia)) as Hsw.
    norm_in Hp20. norm_in S20. norm_in Hsw. norm_in Hpg. norm_in Sg.
    do 5 eexists. norm. run ltac:(first [rewrite thousand | rewrite Hp20 | rewrite Hpg | rewrite Sg | rewrite Hsw | queues]).
Qed.
