(** Transcriptions of /repo/hvcc/interpreters/pd2hv/libs/pd/*.pd.  One item per line of the file, in its
    order; x positions only for inlets and outlets.  [$1] etc. are arguments. *)
From Verif Require Export PatchModel.
Open Scope Z_scope.

Definition whole (z : Z) : elem := EF (of_int z).
Definition word (s : string) : elem := ES (T s).
Definition box (l : msg) : item := IObj (PBox [map TE l]).
Definition trig (cs : list cast) : item := IObj (PSeq cs).

(** [unpack] with n arguments and [route], [sel]: PdUnpackObject.py:38-103, PdRouteObject.py:61-168,
    PdSelectObject.py:59-155. *)
Fixpoint unpack_parts (n : nat) : list item :=                   (* slices and outlets, from the last on *)
  match n with
  | O => []
  | S k => IObj (PSlice (Z.of_nat k) 1) :: IOut (Z.of_nat k) :: unpack_parts k
  end.
Fixpoint unpack_conns (n at_ : nat) : list (nat * nat * nat * nat) :=
  match n with O => [] | S k => (0, 0, at_, 0)%nat :: (at_, 0, S at_, 0)%nat :: unpack_conns k (2 + at_) end.
Definition unpack_pd (n : nat) : patch := mkPatch (IIn 0 :: unpack_parts n) (unpack_conns n 1).
Fixpoint case_parts (n : nat) (part : prim) (i : nat) : list item :=
  match n with O => [] | S k => IObj part :: IOut (Z.of_nat i) :: case_parts k part (S i) end.
Fixpoint case_conns (n : nat) (outs : list nat) (i : nat) : list (nat * nat * nat * nat) :=
  match n with
  | O => []
  | S k => (2, i, 4 + 2 * i, 0)%nat :: map (fun o => (4 + 2 * i, o, 5 + 2 * i, 0)%nat) outs ++ case_conns k outs (S i)
  end.
Definition cases_pd (cases : list label) (part : prim) (outs : list nat) : patch :=
  let n := List.length cases in
  mkPatch ([IIn 0; IIn 1; IObj (PSwitch cases); IOut (Z.of_nat n)] ++ case_parts n part 0)
          ([(0, 0, 2, 0)%nat; (2, n, 3, 0)%nat] ++ case_conns n outs 0).
Definition route_pd (cases : list label) : patch := cases_pd cases (PSlice 1 (-1)) [0%nat; 1%nat].
Definition sel_pd (cases : list label) : patch := cases_pd cases (PSeq [CB]) [0%nat].

(** f.pd *)
Definition f_pd (k : elem) : patch := mkPatch
  [IText; IObj (PVar k); IOut 13; IIn 13; IIn 124]
  [(1,0,2,0); (3,0,1,0); (4,0,1,1)]%nat.
(** bang.pd *)
Definition bang_pd : patch := mkPatch [IIn 9; IObj (PSeq [CB]); IOut 9] [(0,0,1,0); (1,0,2,0)]%nat.
(** samplerate~.pd *)
Definition samplerate_pd : patch := mkPatch
  [IIn 19; IOut 19; box [word "samplerate"]; IObj PSystem] [(0,0,2,0); (2,0,3,0); (3,0,1,0)]%nat.
(** int.pd *)
Definition int_pd (k : elem) : patch := mkPatch
  [IIn 14; ISub (f_pd k); IIn 35; IOut 14; IObj (PIf (match k with EF x => negb (feqb x fzero) | _ => false end));
   IObj (PBinK GREATER_THAN fzero); IObj (PUn FLOOR); IObj (PUn CEIL); IText; trig [CA; CA]]
  [(0,0,1,0); (1,0,9,0); (2,0,1,1); (4,0,7,0); (4,1,6,0); (5,0,4,1); (6,0,3,0); (7,0,3,0); (9,0,4,0); (9,1,5,0)]%nat.
(** moses.pd *)
Definition moses_pd (k : f32) : patch := mkPatch
  [IIn 15; IIn 129; IOut 15; IOut 102; IObj (PBin GREATER_THAN_EQL k); IText; trig [CA; CA]; IObj (PIf false)]
  [(0,0,6,0); (1,0,4,1); (4,0,7,1); (6,0,7,0); (6,1,4,0); (7,0,2,0); (7,1,3,0)]%nat.
(** spigot.pd *)
Definition spigot_pd (k : f32) : patch := mkPatch
  [IIn 10; IIn 103; IOut 103; IText; IObj (PIf (negb (feqb k fzero)))]
  [(0,0,4,0); (1,0,4,1); (4,1,2,0)]%nat.
(** change.pd *)
Definition change_pd (k : f32) : patch := mkPatch
  [IObj (PIf false); trig [CF; CF]; IOut 22; ISub (route_pd [LS (T "bang"); LS (T "set")]); IObj (PBin NEQ k); IText;
   IIn 22; trig [CF; CF]; ISub (f_pd (EF k))]
  [(0,1,1,0); (1,0,8,0); (1,1,4,1); (3,0,8,0); (3,1,4,1); (3,1,8,1); (3,2,7,0); (4,0,0,1); (6,0,3,0); (7,0,0,0);
   (7,1,4,0); (8,0,2,0)]%nat.
(** swap.pd *)
Definition swap_pd (k : f32) : patch := mkPatch
  [IIn 28; IIn 107; IOut 28; IOut 220; ISub (f_pd (whole 0)); trig [CB; CB]; trig [CB; CF]; ISub (f_pd (EF k));
   IObj (PSwitch [LS (T "bang")]); IText]
  [(0,0,8,0); (1,0,7,1); (4,0,3,0); (5,0,7,0); (5,1,4,0); (6,0,7,0); (6,1,4,0); (7,0,2,0); (8,0,5,0); (8,1,6,0)]%nat.
(** stripnote.pd *)
Definition stripnote_pd : patch := mkPatch
  [IIn 47; IOut 47; ISub (unpack_pd 2); IOut 96; ISub (spigot_pd fzero); IObj (PBinK NEQ fzero); ISub (spigot_pd fzero);
   IIn 248; ISub (spigot_pd fzero); trig [CF; CF]; ISub (unpack_pd 2); trig [CA; CA]; ISub (f_pd (whole 0)); box [whole 0];
   box [whole 1]; ISub (spigot_pd fzero); IObj (PPack [whole 0; whole 0]); trig [CB; CF; CB]; IObj (PBinK EQ fzero)]
  [(0,0,11,0); (2,0,4,0); (2,1,9,0); (4,0,1,0); (5,0,4,1); (5,0,6,1); (6,0,3,0); (6,0,16,1); (7,0,16,1); (8,0,2,0);
   (9,0,6,0); (9,1,5,0); (10,0,17,0); (10,1,14,0); (11,0,15,0); (11,1,10,0); (12,0,15,1); (12,0,18,0); (13,0,12,1);
   (14,0,12,1); (15,0,2,0); (16,0,8,0); (17,0,13,0); (17,1,16,0); (17,2,12,0); (18,0,8,1)]%nat.
(** until.pd *)
Definition until_pd : patch := mkPatch
  [IIn 39; trig [CF; CF]; ISub (spigot_pd fzero); IObj (PBin LESS_THAN fzero); ISub (f_pd (whole 0)); IObj (PBinK ADD (of_int 1)); IOut 105;
   ISub (moses_pd (of_int 1)); ISub (int_pd (whole 0)); trig [CF; CB]; IIn 170; box [whole 0]; trig [CF; CB]; box [whole 1];
   ISub (spigot_pd (of_int 1)); box [word "input"; word "needs"; word "to"; word "be"; word ">="; whole 1]; IObj PPrint;
   ISub (f_pd (whole 0)); trig [CB; CF]]
  [(0,0,12,0); (1,0,2,0); (1,1,3,0); (2,0,9,0); (3,0,2,1); (4,0,1,0); (5,0,4,0); (7,0,15,0); (7,1,18,0); (8,0,7,0);
   (9,0,14,0); (9,1,6,0); (10,0,11,0); (11,0,14,1); (12,0,8,0); (12,1,13,0); (13,0,14,1); (14,0,5,0); (15,0,16,0);
   (17,0,4,0); (18,0,17,0); (18,1,3,1)]%nat.
(** delay.pd; [d] the argument in samples (cDelay_init) *)
Definition delay_pd (d : Z) : patch := mkPatch
  [IIn 21; IIn 144; IOut 21; IText; IObj (PSwitch [LS (T "stop")]); box [word "clear"]; IObj (PDelay d); trig [CB; CA; CA]]
  [(0,0,4,0); (1,0,6,1); (4,0,5,0); (4,1,7,0); (5,0,6,0); (6,0,2,0); (7,0,6,0); (7,1,6,1); (7,2,5,0)]%nat.
(** pipe.pd *)
Definition pipe_pd (d : Z) : patch := mkPatch
  [IIn 14; IIn 137; IOut 14; IText; IObj (PDelay d)] [(0,0,4,0); (1,0,4,1); (4,0,2,0)]%nat.
(** metro.pd *)
Definition metro_pd (k : f32) : patch := mkPatch
  [IIn 62; IIn 255; IOut 62; IText; IObj (PSwitch [LN fzero; LS (T "stop")]); box [word "clear"]; trig [CA; CA]; IObj (PDelay 0);
   ISub bang_pd; trig [CA; CA]; IText; IObj (PBinK MAX (of_int 1)); ISub samplerate_pd; IObj (PBinK DIVIDE (of_int 1000));
   IObj (PBin MULTIPLY fzero); ISub (f_pd (EF k)); trig [CA; CA]; ILoad]
  [(0,0,4,0); (1,0,15,0); (4,0,5,0); (4,1,5,0); (4,2,8,0); (5,0,7,0); (6,0,2,0); (6,1,7,0); (7,0,6,0); (8,0,9,0); (9,0,6,0);
   (9,1,5,0); (11,0,7,2); (12,0,13,0); (13,0,14,1); (14,0,11,0); (15,0,14,0); (16,0,15,0); (16,1,12,0); (17,0,16,0)]%nat.
(** timer.pd *)
Definition timer_pd : patch := mkPatch
  [IIn 24; IIn 136; IOut 83; IObj PSystem; box [word "currentTime"]; IObj (PBin SUBTRACT fzero); IObj PSystem; box [word "currentTime"];
   IObj (PBin DIVIDE fzero); trig [CA; CA]; IObj PSystem; box [word "samplerate"]; IObj (PBinK DIVIDE (of_int 1000))]
  [(0,0,4,0); (1,0,9,0); (3,0,5,1); (4,0,3,0); (5,0,8,0); (6,0,5,0); (7,0,6,0); (8,0,2,0); (9,0,7,0); (9,1,11,0); (10,0,12,0);
   (11,0,10,0); (12,0,8,1)]%nat.
(** makenote.pd *)
Definition makenote_pd (k1 k2 : f32) : patch := mkPatch
  [IIn 37; IIn 155; IIn 325; box [whole 0]; ILoad; ISub (f_pd (EF k2)); IObj (PBinK MAX fzero); ISub (pipe_pd 0); IOut 141; IOut 37;
   ISub (spigot_pd fzero); ISub (f_pd (EF k1)); ISub (f_pd (whole 0)); IObj (PBinK NEQ fzero); IText; IText; trig [CA; CA]; trig [CA; CA];
   trig [CA; CA]; trig [CA; CA]; trig [CA; CB]]
  [(0,0,10,0); (1,0,11,0); (2,0,5,0); (3,0,8,0); (4,0,16,0); (5,0,6,0); (6,0,7,1); (7,0,19,0); (10,0,18,0); (11,0,17,0); (12,0,8,0);
   (13,0,10,1); (16,0,11,0); (16,1,5,0); (17,0,12,1); (17,1,13,0); (18,0,7,0); (18,1,20,0); (19,0,9,0); (19,1,3,0); (20,0,9,0); (20,1,12,0)]%nat.
(** clip.pd *)
Definition clip_pd (lo hi : f32) : patch := mkPatch
  [IIn 61; IIn 104; IText; IText; IObj (PBin MIN hi); IObj (PBin MAX lo); IOut 14; IIn 14]
  [(0,0,5,1); (1,0,4,1); (4,0,5,0); (5,0,6,0); (7,0,4,0)]%nat.
(** tgl.pd *)
Definition tgl_pd : patch := mkPatch
  [IIn 32; IObj (PBinK EQ fzero); IOut 32; ISub (f_pd (whole 1))]
  [(0,0,3,0); (1,0,3,1); (3,0,1,0); (3,0,2,0)]%nat.
(** wrap.pd *)
Definition wrap_pd : patch := mkPatch
  [IIn 39; IObj (PBin SUBTRACT fzero); IOut 39; IObj (PUn FLOOR); trig [CA; CA]; trig [CF]]
  [(0,0,5,0); (1,0,2,0); (3,0,1,1); (4,0,1,0); (4,1,3,0); (5,0,4,0)]%nat.
(** notein.pd, polytouchin.pd, bendin.pd, touchin.pd, pgmin.pd, ctlin.pd: the receiver (r __hv_notein etc.)
    is the inlet of the transcription. *)
Definition notein_pd (k : f32) : patch := mkPatch
  [IText; ISub (unpack_pd 3); ILoad; ISub (int_pd (EF k)); ISub (spigot_pd fzero); ISub (spigot_pd fzero); ISub (spigot_pd fzero);
   IObj (PBinK ADD (of_int 1)); ISub (spigot_pd fzero); IObj (PBinK EQ fzero); IObj (PBin EQ fzero); trig [CF; CF]; trig [CF; CF];
   IOut 22; IOut 140; IOut 301; IIn 140; IObj (PBinK MAX (of_int 1))]
  [(1,0,8,0); (1,0,5,0); (1,1,6,0); (1,1,4,0); (1,2,7,0); (2,0,3,0); (3,0,9,0); (3,0,10,1); (4,0,14,0); (5,0,13,0); (6,0,14,0);
   (7,0,10,0); (7,0,17,0); (8,0,13,0); (9,0,12,0); (10,0,11,0); (11,0,8,1); (11,1,4,1); (12,0,5,1); (12,1,6,1); (16,0,1,0);
   (17,0,15,0)]%nat.
Definition polytouchin_pd (k : f32) : patch := mkPatch
  [ISub (unpack_pd 3); ILoad; ISub (int_pd (EF k)); ISub (spigot_pd fzero); ISub (spigot_pd fzero); ISub (spigot_pd fzero);
   IObj (PBinK ADD (of_int 1)); ISub (spigot_pd fzero); IObj (PBinK EQ fzero); IObj (PBin EQ fzero); trig [CF; CF]; trig [CF; CF];
   IOut 22; IOut 140; IOut 301; IObj (PBinK MAX (of_int 1)); IIn 140; IText]
  [(0,0,7,0); (0,0,4,0); (0,1,5,0); (0,1,3,0); (0,2,6,0); (1,0,2,0); (2,0,8,0); (2,0,9,1); (3,0,13,0); (4,0,12,0); (5,0,13,0);
   (6,0,9,0); (6,0,15,0); (7,0,12,0); (8,0,11,0); (9,0,10,0); (10,0,7,1); (10,1,3,1); (11,0,4,1); (11,1,5,1); (15,0,14,0);
   (16,0,0,0)]%nat.
Definition bendin_pd (k : f32) : patch := mkPatch
  [IOut 209; ISub (unpack_pd 2); IIn 152; IOut 50; ILoad; IObj (PBinK EQ fzero); ISub (int_pd (EF k)); ISub (spigot_pd fzero);
   IObj (PBinK ADD (of_int 1)); ISub (spigot_pd fzero); IObj (PBin EQ fzero); ISub (spigot_pd fzero); trig [CF; CF];
   IObj (PBinK MAX (of_int 1)); IText; trig [CF; CF]; ISub (spigot_pd fzero)]
  [(1,0,11,0); (1,0,7,0); (1,1,8,0); (2,0,1,0); (4,0,6,0); (5,0,15,0); (6,0,5,0); (6,0,10,1); (7,0,3,0); (8,0,10,0); (8,0,16,0);
   (8,0,9,0); (9,0,13,0); (10,0,12,0); (11,0,3,0); (12,0,11,1); (12,1,9,1); (13,0,0,0); (15,0,7,1); (15,1,16,1); (16,0,13,0)]%nat.
Definition touchin_pd (k : f32) : patch := mkPatch
  [IOut 209; ISub (unpack_pd 2); IOut 50; ILoad; IObj (PBinK EQ fzero); ISub (int_pd (EF k)); ISub (spigot_pd fzero);
   IObj (PBinK ADD (of_int 1)); ISub (spigot_pd fzero); IObj (PBin EQ fzero); ISub (spigot_pd fzero); trig [CF; CF];
   IObj (PBinK MAX (of_int 1)); trig [CF; CF]; ISub (spigot_pd fzero); IIn 152; IText]
  [(1,0,10,0); (1,0,6,0); (1,1,7,0); (3,0,5,0); (4,0,13,0); (5,0,4,0); (5,0,9,1); (6,0,2,0); (7,0,9,0); (7,0,14,0); (7,0,8,0);
   (8,0,12,0); (9,0,11,0); (10,0,2,0); (11,0,10,1); (11,1,8,1); (12,0,0,0); (13,0,6,1); (13,1,14,1); (14,0,12,0); (15,0,1,0)]%nat.
Definition pgmin_pd (k : f32) : patch := mkPatch
  [IOut 209; ISub (unpack_pd 2); IOut 50; ILoad; IObj (PBinK EQ fzero); ISub (int_pd (EF k)); ISub (spigot_pd fzero);
   IObj (PBinK ADD (of_int 1)); ISub (spigot_pd fzero); IObj (PBin EQ fzero); ISub (spigot_pd fzero); trig [CF; CF];
   IObj (PBinK MAX (of_int 1)); trig [CF; CF]; ISub (spigot_pd fzero); IIn 152; IText; IObj (PBinK ADD (of_int 1))]
  [(1,0,10,0); (1,0,6,0); (1,1,7,0); (3,0,5,0); (4,0,13,0); (5,0,4,0); (5,0,9,1); (6,0,17,0); (7,0,9,0); (7,0,14,0); (7,0,8,0);
   (8,0,12,0); (9,0,11,0); (10,0,17,0); (11,0,10,1); (11,1,8,1); (12,0,0,0); (13,0,6,1); (13,1,14,1); (14,0,12,0); (15,0,1,0);
   (17,0,2,0)]%nat.
Definition ctlin_pd (k1 k2 : f32) : patch := mkPatch
  [IOut 14; IOut 229; IOut 551; ILoad; IText; IIn 438; trig [CA; CA]; ISub (int_pd (EF k1)); ISub (int_pd (EF k2)); ISub (unpack_pd 3);
   IObj (PBinK ADD (of_int 1)); IObj (PBinK MAX (of_int 1)); IObj (PBin EQ fzero); trig [CF; CF]; IObj (PBinK EQ fzero);
   ISub (spigot_pd fzero); ISub (spigot_pd fzero); ISub (spigot_pd fzero); IText; ISub (spigot_pd (of_int 1));
   ISub (spigot_pd (of_int 1)); IObj (PBinK EQ fzero); IText; IText; ISub (spigot_pd (of_int 1)); ISub (spigot_pd (of_int 1));
   ISub (spigot_pd fzero); trig [CF; CF]; IObj (PBinK NEQ fzero); trig [CF; CF]; trig [CA; CA]; IObj (PBinK EQ fzero);
   IObj (PBin EQ fzero); IText; trig [CF; CF]; ISub (spigot_pd fzero); IText; IText; ISub (f_pd (whole 0)); trig [CA]; IText; IText;
   trig [CF; CB; CF]; trig [CF; CF; CF; CF]]
  [(3,0,6,0); (5,0,9,0); (6,0,7,0); (6,1,8,0); (7,0,13,0); (8,0,27,0); (9,0,15,0); (9,0,17,0); (9,1,16,0); (9,1,12,0); (9,2,10,0);
   (10,0,11,0); (11,0,29,0); (12,0,42,0); (13,0,14,0); (13,1,12,1); (14,0,43,0); (15,0,0,0); (16,0,1,0); (17,0,20,0); (19,0,25,0);
   (20,0,24,0); (21,0,20,1); (24,0,0,0); (25,0,1,0); (26,0,32,0); (27,0,32,1); (27,1,30,0); (28,0,26,1); (29,0,34,0); (29,1,26,0);
   (30,0,31,0); (30,1,28,0); (31,0,25,1); (32,0,24,1); (34,0,38,1); (34,1,35,0); (35,0,2,0); (38,0,19,0); (39,0,35,1); (42,0,17,1);
   (42,1,38,0); (42,2,19,1); (43,0,21,0); (43,1,15,1); (43,2,16,1); (43,3,39,0)]%nat.
(** noteout.pd, bendout.pd, ctlout.pd, pgmout.pd, touchout.pd, polytouchout.pd: the sender (s __hv_noteout etc.) is the outlet. *)
Definition noteout_pd (k : f32) : patch := mkPatch
  [IObj (PPack [whole 0; whole 0; whole 0]); IOut 59; IIn 59; IIn 87; ILoad; ISub (f_pd (EF k)); IIn 116; IObj (PBinK SUBTRACT (of_int 1));
   IObj (PBinK MAX fzero)]
  [(0,0,1,0); (2,0,0,0); (3,0,0,1); (4,0,5,0); (5,0,7,0); (6,0,5,0); (7,0,8,0); (8,0,0,2)]%nat.
Definition bendout_pd (k : f32) : patch := mkPatch
  [IObj (PPack [whole 0; whole 0]); IIn 91; ISub (f_pd (EF k)); ILoad; IOut 46; IIn 46; IObj (PBinK ADD (of_int 8192));
   IObj (PBinK SUBTRACT (of_int 1)); IObj (PBinK MAX fzero)]
  [(0,0,4,0); (1,0,2,0); (2,0,7,0); (3,0,2,0); (5,0,6,0); (6,0,0,0); (7,0,8,0); (8,0,0,1)]%nat.
Definition ctlout_pd (k1 k2 : f32) : patch := mkPatch
  [IObj (PPack [whole 0; whole 0; whole 0]); ILoad; IIn 116; IOut 59; IIn 59; ISub (f_pd (EF k2)); IIn 87; ISub (f_pd (EF k1)); trig [CB; CB];
   IObj (PBinK SUBTRACT (of_int 1)); IObj (PBinK MAX fzero)]
  [(0,0,3,0); (1,0,8,0); (2,0,5,0); (4,0,0,0); (5,0,9,0); (6,0,7,0); (7,0,0,1); (8,0,7,0); (8,1,5,0); (9,0,10,0); (10,0,0,2)]%nat.
Definition pgmout_pd (k : f32) : patch := mkPatch
  [IOut 52; IObj (PPack [whole 0; whole 0]); IIn 97; ISub (f_pd (EF k)); ILoad; IIn 52; IObj (PBinK SUBTRACT (of_int 1)); IObj (PBinK MAX fzero);
   IObj (PBinK SUBTRACT (of_int 1)); IObj (PBinK MAX fzero)]
  [(1,0,0,0); (2,0,3,0); (3,0,6,0); (4,0,3,0); (5,0,8,0); (6,0,7,0); (7,0,1,1); (8,0,9,0); (9,0,1,0)]%nat.
Definition touchout_pd (k : f32) : patch := mkPatch
  [IObj (PPack [whole 0; whole 0]); IIn 97; ISub (f_pd (EF k)); ILoad; IIn 52; IOut 52; IObj (PBinK SUBTRACT (of_int 1)); IObj (PBinK MAX fzero)]
  [(0,0,5,0); (1,0,2,0); (2,0,6,0); (3,0,2,0); (4,0,0,0); (6,0,7,0); (7,0,0,1)]%nat.
Definition polytouchout_pd (k : f32) : patch := mkPatch
  [IObj (PPack [whole 0; whole 0; whole 0]); ILoad; ISub (f_pd (EF k)); IIn 116; IObj (PBinK SUBTRACT (of_int 1)); IObj (PBinK MAX fzero);
   IOut 59; IIn 59; IIn 87]
  [(0,0,6,0); (1,0,2,0); (2,0,4,0); (3,0,2,0); (4,0,5,0); (5,0,0,2); (7,0,0,0); (8,0,0,1)]%nat.
