(** The message side of the filters of /repo/hvcc/interpreters/pd2hv/libs/pd: what the control objects send to the signal objects.
    Signal objects are left out ([IText]); the inlets of signal objects that receive messages are outlets of the transcription. *)
From Verif Require Export PatchLibs SndModel.
Open Scope Z_scope.

(** 6.28319 *)
Definition two_pi : f32 := decimal 628319 5.
(** lop~.pd:5-19, the subpatch hz2rad *)
Definition hz2rad_pd : patch := mkPatch
  [ISub samplerate_pd; IObj (PBin MULTIPLY fzero); IOut 28; IIn 28; IIn 88; IObj (PBinK DIVIDE fzero); IObj (PBox [[TE (EF two_pi); TArg 0]])]
  [(0,0,6,0); (1,0,2,0); (3,0,1,0); (4,0,0,0); (5,0,1,1); (6,0,5,0)]%nat.
(** lop~.pd; outlet 0: the right inlet of *~, outlet 1: sig~ (the coefficient of __rpole~f). *)
Definition lop_ctl (fc : f32) : patch := mkPatch
  [IText; ILoad; IIn 23; ISub (f_pd (EF fc)); ISub hz2rad_pd; IOut 0; IIn 38; IOut 1; IText; ISub (clip_pd fzero fone); trig [CA; CA];
   trig [CA; CA]; IText; IObj (PBinK SUBTRACT fone)]
  [(1,0,11,0); (3,0,4,0); (4,0,9,0); (6,0,3,0); (9,0,10,0); (10,0,5,0); (10,1,13,0); (11,0,3,0); (11,1,4,1); (13,0,7,0)]%nat.
(** hip~.pd; outlet 0: the right inlet of *~, outlet 1: sig~ (the coefficient of __rpole~f). *)
Definition hip_ctl (fc : f32) : patch := mkPatch
  [IText; IObj (PBinK ADD fone); IObj (PBinK MULTIPLY (decimal 5 1)); IOut 0; IObj (PBox [[TE (whole 1); TArg 0]]); IObj (PBinK SUBTRACT fzero);
   ISub (clip_pd fzero fone); IText; IText; IOut 1; ILoad; ISub (f_pd (EF fc)); trig [CA; CA]; IText; trig [CA; CA]; IIn 28; IIn 145; IText;
   IObj (PBinK MULTIPLY (of_int (-1))); IObj (PBinK MAX fone); ISub samplerate_pd; IObj (PBinK MULTIPLY two_pi); IObj (PBin DIVIDE fzero); IText]
  [(1,0,2,0); (2,0,3,0); (4,0,5,0); (5,0,6,0); (6,0,14,0); (10,0,12,0); (11,0,19,0); (12,0,11,0); (12,1,20,0); (14,0,18,0); (14,1,1,0);
   (16,0,11,0); (18,0,9,0); (19,0,21,0); (20,0,22,1); (21,0,22,0); (22,0,4,0)]%nat.
(** bp~.pd; outlets 0, 1, 2: inlets 1, 4 and 5 of the biquad (item 7: b0, a1, a2; its other inlets are not connected), added at the end. *)
Definition bp_ctl (fc q : f32) : patch := mkPatch
  [IIn 18; IIn 108; IText; IObj (PBin DIVIDE fzero); ISub samplerate_pd; ILoad; ISub (f_pd (EF fc)); IText; IObj (PBinK MULTIPLY two_pi); IText;
   IText; IIn 176; ISub (f_pd (EF q)); trig [CA; CA; CA]; IObj (PBin DIVIDE fzero); IObj (PBinK MULTIPLY (of_int (-1))); IObj (PBinK ADD fone);
   IText; IText; IText; IObj (PUn COS); IObj (PBinK MULTIPLY (of_int 2)); IObj (PBin MULTIPLY fzero); IText; trig [CB; CA]; IText;
   IObj (PBinK MULTIPLY (of_int (-1))); IObj (PBinK MULTIPLY (of_int (-1))); IObj (PBinK MULTIPLY (of_int (-1))); IObj (PBinK MULTIPLY (of_int 2));
   IObj (PBin MULTIPLY fzero); trig [CA; CA; CA]; IObj (PBinK POW (of_int 2)); IObj (PBin ADD fzero); IObj (PBin MULTIPLY fzero); trig [CA; CA; CA];
   IText; IText; IText; IObj (PBinK MAX (decimal 1 3)); IObj (PBinK MIN fone); trig [CA; CA; CA]; IOut 0; IOut 1; IOut 2]
  [(1,0,6,0); (3,0,31,0); (4,0,3,1); (5,0,13,0); (6,0,8,0); (8,0,3,0); (11,0,24,0); (12,0,39,0); (13,0,6,0); (13,1,4,0); (13,2,12,0);
   (14,0,40,0); (15,0,16,0); (16,0,41,0); (20,0,21,0); (21,0,22,1); (22,0,28,0); (24,0,6,0); (24,1,12,0); (26,0,27,0); (27,0,44,0);
   (28,0,43,0); (29,0,34,0); (30,0,33,1); (31,0,14,0); (31,1,20,0); (31,2,30,1); (32,0,26,0); (33,0,34,1); (34,0,42,0); (35,0,29,0);
   (35,1,33,0); (35,2,15,0); (39,0,14,1); (40,0,35,0); (41,0,30,0); (41,1,22,0); (41,2,32,0)]%nat.

(** ** hip~.pd, the signal objects, without SIMD. [b]: what sig~ holds, [g]: the right inlet of *~; [w1]: the output of __rpole~f one
    sample ago, kept by __rpole~f (HvSignalRPole.h:121-122, y = x - b * y[-1]) and by __del1~f in rzero~.pd, whose *~ multiplies it by
    "sig~ 1" and whose -~ subtracts the product. Result: the new [w1], the sample. *)
Definition hip_step (w1 b g x : f32) : f32 * f32 :=
  let w := fsub x (fmul b w1) in (w, fmul (fsub w (fmul w1 fone)) g).
(** [l]: the numbers in force and the input, sample by sample. *)
Fixpoint hip_run (w1 : f32) (l : list (f32 * f32 * f32)) : list f32 :=
  match l with [] => [] | (b, g, x) :: l' => let (w, y) := hip_step w1 b g x in y :: hip_run w l' end.
