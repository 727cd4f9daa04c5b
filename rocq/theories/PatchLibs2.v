(** More transcriptions of /repo/hvcc/interpreters/pd2hv/libs/pd/*.pd, as in PatchLibs.  "@hv_obj __log2" etc. is the object
    itself: the boxes drawn inside are not read (PdParser.py:272-293). *)
From Verif Require Export PatchLibs.
Open Scope Z_scope.

(** nbx.pd; hsl.pd, vsl.pd, hradio.pd, vradio.pd are the same *)
Definition nbx_pd : patch := mkPatch [IIn 24; ISub (f_pd (whole 0)); IOut 24] [(0,0,1,0); (1,0,2,0)]%nat.
(** floatatom.pd *)
Definition floatatom_pd (k : f32) : patch := mkPatch [IIn 17; IOut 17; IText; ISub (f_pd (EF k))] [(0,0,3,0); (3,0,1,0)]%nat.
(** mtof.pd *)
Definition mtof_pd : patch := mkPatch
  [IText; IIn 25; IOut 25; IObj (PBinK MULTIPLY (of_int 440)); IObj (PBinK SUBTRACT (of_int 69)); IObj (PBinK DIVIDE (of_int 12));
   IObj (PBin POW (of_int 1)); box [whole 2]; trig [CA; CA]]
  [(1,0,4,0); (3,0,2,0); (4,0,5,0); (5,0,8,0); (6,0,3,0); (7,0,6,0); (8,0,7,0); (8,1,6,1)]%nat.
(** ftom.pd *)
Definition ftom_pd : patch := mkPatch
  [IIn 21; IOut 21; IObj (PBinK DIVIDE (of_int 440)); IObj (PBinK MULTIPLY (of_int 12)); IObj (PBinK ADD (of_int 69)); IText;
   trig [CF; CF]; IObj (PBinK GREATER_THAN fzero); box [whole (-1500)]; IObj (PIf false); IObj (PUn LOG2)]
  [(0,0,6,0); (2,0,10,0); (3,0,4,0); (4,0,1,0); (6,0,9,0); (6,1,7,0); (7,0,9,1); (8,0,1,0); (9,0,8,0); (9,1,2,0); (10,0,3,0)]%nat.
(** dbtorms.pd, dbtopow.pd *)
Definition dbtorms_pd : patch := mkPatch
  [box [whole 10]; IObj (PBin POW fzero); IObj (PBinK SUBTRACT (of_int 100)); IIn 29; IOut 29; trig [CF; CF];
   IObj (PBinK GREATER_THAN fzero); IObj (PBinK MIN (of_int 485)); box [whole 0]; IObj (PIf false); IObj (PBinK DIVIDE (of_int 20)); trig [CA; CA]]
  [(0,0,1,0); (1,0,4,0); (2,0,10,0); (3,0,5,0); (5,0,9,0); (5,1,6,0); (6,0,9,1); (7,0,2,0); (8,0,4,0); (9,0,8,0); (9,1,7,0);
   (10,0,11,0); (11,0,0,0); (11,1,1,1)]%nat.
Definition dbtopow_pd : patch := mkPatch
  [box [whole 10]; IObj (PBin POW fzero); IObj (PBinK SUBTRACT (of_int 100)); IIn 29; IOut 29; trig [CF; CF];
   IObj (PBinK GREATER_THAN fzero); box [whole 0]; IObj (PBinK MIN (of_int 870)); trig [CA; CA]; IObj (PIf false); IObj (PBinK DIVIDE (of_int 10))]
  [(0,0,1,0); (1,0,4,0); (2,0,11,0); (3,0,5,0); (5,0,10,0); (5,1,6,0); (6,0,10,1); (7,0,4,0); (8,0,2,0); (9,0,0,0); (9,1,1,1);
   (10,0,7,0); (10,1,8,0); (11,0,9,0)]%nat.
(** rmstodb.pd, powtodb.pd *)
Definition rmstodb_pd : patch := mkPatch
  [IIn 26; IOut 26; trig [CF; CF]; box [whole 0]; IObj (PBinK MULTIPLY (of_int 20)); IObj (PBinK ADD (of_int 100)); IObj (PBinK MAX fzero);
   IObj (PBinK GREATER_THAN fzero); IObj (PIf false); IObj (PUn LOG10)]
  [(0,0,2,0); (2,0,8,0); (2,1,7,0); (3,0,1,0); (4,0,5,0); (5,0,6,0); (6,0,1,0); (7,0,8,1); (8,0,3,0); (8,1,9,0); (9,0,4,0)]%nat.
Definition powtodb_pd : patch := mkPatch
  [IIn 26; IOut 26; trig [CF; CF]; box [whole 0]; IObj (PBinK ADD (of_int 100)); IObj (PBinK MAX fzero); IObj (PBinK GREATER_THAN fzero);
   IObj (PBinK MULTIPLY (of_int 10)); IObj (PIf false); IObj (PUn LOG10)]
  [(0,0,2,0); (2,0,8,0); (2,1,6,0); (3,0,1,0); (4,0,5,0); (5,0,1,0); (6,0,8,1); (7,0,4,0); (8,0,3,0); (8,1,9,0); (9,0,7,0)]%nat.
(** div.pd *)
Definition div_pd (k : f32) : patch := mkPatch [IOut 12; IIn 12; IIn 141; IText; IObj (PBin INT_DIV k)] [(1,0,4,0); (2,0,4,1); (4,0,0,0)]%nat.
(** midiin.pd, midirealtimein.pd: the receiver is the inlet. *)
Definition midiin_pd : patch := mkPatch
  [IOut 77; IOut 20; IIn 20; IText; ISub (unpack_pd 2); IObj (PBinK ADD (of_int 1))] [(2,0,4,0); (4,0,1,0); (4,1,5,0); (5,0,0,0)]%nat.
Definition midirealtimein_pd : patch := mkPatch
  [IOut 86; IOut 20; IText; ISub (unpack_pd 2); IIn 20] [(3,0,1,0); (3,1,0,0); (4,0,3,0)]%nat.
(** random.pd; [s]: the seed the compiler draws, HLangRandom.py:43 *)
Definition random_pd (s : Z) (k : f32) : patch := mkPatch
  [IIn 13; IIn 34; IOut 13; IObj (PBin MULTIPLY k); IObj (PUn FLOOR); IText; IObj (PRandom (cRandom_init s)); IObj (PSlice 1 1);
   IObj (PSwitch [LS (T "seed")])]
  [(0,0,8,0); (1,0,3,1); (3,0,4,0); (4,0,2,0); (6,0,3,0); (7,0,6,1); (8,0,7,0); (8,1,6,0)]%nat.
(** line.pd *)
Definition line_pd (k1 k2 : f32) : patch := mkPatch
  [IOut 118; IIn 22; ISub samplerate_pd; IObj (PBinK DIVIDE (of_int 1000)); IObj (PBin MULTIPLY fzero); ISub (metro_pd (of_int 20));
   IObj (PBin MULTIPLY fzero); IObj (PBinK DIVIDE (of_int 1000)); ISub (f_pd (whole 0)); IObj (PBin SUBTRACT fzero); box [whole 1];
   ISub (sel_pd [LN (of_int 0); LN (of_int 1)]); box [whole 0]; IObj (PBinK LESS_THAN_EQL fzero); IObj (PBin ADD fzero); IObj (PBin DIVIDE (of_int 20));
   IObj (PBin DIVIDE fzero); trig [CF; CF]; trig [CF; CF]; trig [CB; CB]; IText; IText; IObj (PBin ADD fzero); IText; trig [CA; CA];
   ISub (route_pd [LS (T "stop"); LS (T "set")]); box [whole 0]; IIn 165; IIn 373; IText; IText; ISub (f_pd (whole 0)); box [whole 0];
   ISub (f_pd (EF k2)); IObj (PBinK MAX fzero); ISub (sel_pd [LN (of_int 0)]); box [whole 20]; ISub (f_pd (EF k1)); ISub (f_pd (whole 0));
   ISub (f_pd (EF k1)); trig [CF; CB]; IObj (PBin SUBTRACT fzero); trig [CA; CA]; trig [CA; CA]; trig [CA; CA; CB]; trig [CA; CA; CA];
   trig [CA; CA]; trig [CA; CA; CA]; ISub (unpack_pd 2); trig [CB; CB; CA; CB]; ILoad]
  [(1,0,25,0); (2,0,24,0); (3,0,8,1); (4,0,3,0); (5,0,8,0); (6,0,7,0); (7,0,9,1); (8,0,9,0); (8,0,13,0); (9,0,8,1); (10,0,5,0);
   (11,0,39,0); (11,1,19,0); (12,0,42,0); (13,0,11,0); (14,0,39,1); (15,0,16,1); (16,0,43,0); (17,0,15,0); (17,1,4,0); (18,0,41,0);
   (18,1,38,1); (19,0,38,0); (19,1,12,0); (22,0,37,0); (24,0,4,1); (24,1,6,1); (25,0,26,0); (25,1,40,0); (25,2,49,0); (26,0,5,0);
   (27,0,31,1); (28,0,34,0); (31,0,17,0); (32,0,31,1); (33,0,35,0); (34,0,33,0); (35,0,36,0); (35,1,45,0); (36,0,45,0); (37,0,41,1);
   (38,0,39,0); (39,0,14,0); (39,0,46,0); (40,0,44,0); (40,1,26,0); (41,0,16,0); (42,0,43,0); (42,1,5,0); (43,0,14,1); (43,1,22,1);
   (44,0,39,1); (44,1,22,0); (44,2,12,0); (45,0,5,1); (45,1,15,1); (45,2,6,0); (46,0,0,0); (46,1,22,0); (47,0,33,0); (47,1,37,0);
   (47,2,2,0); (48,0,18,0); (48,1,17,0); (49,0,32,0); (49,1,10,0); (49,2,48,0); (49,3,31,0); (50,0,47,0)]%nat.
