(** float, the conversions, div, midiin. *)
From Verif Require Import PatchProofs PatchProofs2 PatchProofs4 PatchSpec4.
From Verif Require Import Float32Facts.
From Coq Require Import Lia Reals.
From Flocq Require Import Core.
Open Scope Z_scope.

Ltac quiet H := split; [constructor | split; [cbn; now rewrite log_nil | split; [reflexivity | exact H]]].
Ltac loud H := split; [constructor | split; [reflexivity | split; [reflexivity | exact H]]].

Inductive f_inv : f32 -> world -> Prop := f_i v s : f_inv v (mkWorld [PVar (EF v); PPass; PPass; PPass] [] s).
Lemma f_sends E k l : sends E (f_pd (EF k)) (map swap_event l) (float_spec k l).
Proof.
  destruct (simulate E (flatten (f_pd (EF k)) 0) f32 _ swap_event float_spec f_inv (fun _ _ => True)) with (s := k) (l := l) (w := boot (flatten (f_pd (EF k)) 0))
    as (w & Hp & Hs); [reflexivity | | exact I | exact (f_i k []) | refine (sends_of E _ _ _ w _ Hp Hs); reflexivity].
  intros v [t [x | y |]] l' w _ Hi; inversion Hi; subst; cbn [swap_event float_spec].
  - eexists x, [_], _. split; [apply plays_one; norm; run consts |]. loud I.
  - eexists y, [], _. split; [apply plays_one; norm; run consts |]. quiet I.
  - eexists v, [_], _. split; [apply plays_one; norm; run consts |]. loud I.
Qed.
Inductive nbx_inv : f32 -> world -> Prop := nbx_i v s : nbx_inv v (mkWorld [PPass; PVar (EF v); PPass; PPass; PPass; PPass] [] s).
Lemma nbx_sends E l : sends E nbx_pd (map slider_event l) (slider_spec (of_int 0) l).
Proof.
  destruct (simulate E (flatten nbx_pd 0) f32 _ slider_event slider_spec nbx_inv (fun _ _ => True)) with (s := of_int 0) (l := l) (w := boot (flatten nbx_pd 0))
    as (w & Hp & Hs); [reflexivity | | exact I | exact (nbx_i (of_int 0) []) | refine (sends_of E _ _ _ w _ Hp Hs); reflexivity].
  intros v [t [| x]] l' w _ Hi; inversion Hi; subst; cbn [slider_event tgl_event slider_spec].
  - eexists v, [_], _. split; [apply plays_one; norm; run consts |]. loud I.
  - eexists x, [_], _. split; [apply plays_one; norm; run consts |]. loud I.
Qed.
Inductive floatatom_inv : f32 -> world -> Prop := floatatom_i v s : floatatom_inv v (mkWorld [PPass; PPass; PVar (EF v); PPass; PPass; PPass] [] s).
Lemma floatatom_sends E k l : sends E (floatatom_pd k) (map slider_event l) (slider_spec k l).
Proof.
  destruct (simulate E (flatten (floatatom_pd k) 0) f32 _ slider_event slider_spec floatatom_inv (fun _ _ => True)) with (s := k) (l := l) (w := boot (flatten (floatatom_pd k) 0))
    as (w & Hp & Hs); [reflexivity | | exact I | exact (floatatom_i k []) | refine (sends_of E _ _ _ w _ Hp Hs); reflexivity].
  intros v [t [| x]] l' w _ Hi; inversion Hi; subst; cbn [slider_event tgl_event slider_spec].
  - eexists v, [_], _. split; [apply plays_one; norm; run consts |]. loud I.
  - eexists x, [_], _. split; [apply plays_one; norm; run consts |]. loud I.
Qed.

(** ** Conversions: [Inv] holds of every state. *)
Lemma conv_sends E p f (Inv : world -> Prop) :
  load_tasks (flatten p 0) = [] -> Inv (boot (flatten p 0)) ->
  (forall t x w, Inv w -> exists w1, runs E (flatten p 0) t w (inlet_task (flatten p 0) 0 [EF x]) w1 /\ Inv w1 /\ sent w1 = log (sent w) [(t, O, [EF (f x)])]) ->
  (forall t m w, Inv w -> match m with EF _ :: _ => False | _ => True end ->
     exists w1, runs E (flatten p 0) t w (inlet_task (flatten p 0) 0 m) w1 /\ Inv w1 /\ sent w1 = sent w) ->
  converts E p f.
Proof.
  intros Hl Hb Hn Ho l Hok.
  destruct (simulate E (flatten p 0) unit _ conv_event (fun _ => conv_spec f) (fun _ => Inv) (fun _ => conv_ok)) with (s := tt) (l := l) (w := boot (flatten p 0))
    as (w & Hp & Hs); [reflexivity | | exact Hok | exact Hb | refine (sends_of E _ _ _ w Hl Hp _)].
  - intros _ [t [x | m]] l' w Hk Hi; inversion Hk as [| ? ? Hx Hl']; subst; cbn [snd] in Hx; cbn [conv_event conv_spec].
    + destruct (Hn t x w Hi) as (w1 & H1 & H2 & H3). exists tt, [(t, O, [EF (f x)])], w1.
      split; [apply plays_one; exact H1 | split; [exact H2 | split; [exact H3 | split; [reflexivity | exact Hl']]]].
    + destruct (Ho t m w Hi) as (w1 & H1 & H2 & H3); [destruct m as [| [| y | s] m]; tauto |]. exists tt, [], w1.
      split; [apply plays_one; exact H1 | split; [exact H2 | split; [now rewrite log_nil | split; [reflexivity | exact Hl']]]].
  - rewrite Hs. reflexivity.
Qed.
Ltac others m H := destruct m as [| [| y | s'] m]; [ | | destruct H | ]; (eexists; split; [norm; run consts |]; split; [constructor | reflexivity]).

(** The values, as they are computed. *)
Definition pow32 (E : env) (x y : f32) : f32 := if fltb fzero x then e_pow E x y else fzero.
Definition quot32 (x y : f32) : f32 := if negb (feqb y fzero) then fdiv x y else fzero.
Definition wrap_value (x : f32) : f32 := fsub x (Bnearbyint mode_DN x).
Definition mtof_value (E : env) (x : f32) : f32 := fmul (pow32 E (of_int 2) (quot32 (fsub x (of_int 69)) (of_int 12))) (of_int 440).
Definition ftom_value (E : env) (x : f32) : f32 :=
  if fltb fzero x then fadd (fmul (unop_value (e_lib E) LOG2 (quot32 x (of_int 440))) (of_int 12)) (of_int 69) else of_int (-1500).
Definition dbto_value (E : env) (limit per : Z) (x : f32) : f32 :=
  if fltb fzero x then pow32 E (of_int 10) (quot32 (fsub (fmin x (of_int limit)) (of_int 100)) (of_int per)) else of_int 0.
Definition todb_value (E : env) (per : Z) (x : f32) : f32 :=
  if fltb fzero x then fmax (fadd (fmul (unop_value (e_lib E) LOG10 x) (of_int per)) (of_int 100)) fzero else of_int 0.

Inductive wrap_inv : world -> Prop := wrap_i v s : wrap_inv (mkWorld [PPass; PBin SUBTRACT v; PPass; PUn FLOOR; PSeq [CA; CA]; PSeq [CF]] [] s).
Lemma wrap_converts E : converts E wrap_pd wrap_value.
Proof.
  apply conv_sends with wrap_inv; [reflexivity | constructor | |].
  - intros t x w Hi; inversion Hi; subst. eexists. split; [norm; run consts |]. split; [constructor | reflexivity].
  - intros t m w Hi H; inversion Hi; subst. others m H.
Qed.
Ltac conv_case facts := intros; match goal with H : _ |- _ => inversion H; subst; clear H end;
  eexists; (split; [norm; run facts |]); (split; [constructor | reflexivity]).

Inductive mtof_inv : world -> Prop := mtof_i v s : mtof_inv (mkWorld
  [PPass; PPass; PBinK MULTIPLY (of_int 440); PBinK SUBTRACT (of_int 69); PBinK DIVIDE (of_int 12); PBin POW v; PBox [[TE (whole 2)]]; PSeq [CA; CA]] [] s).
Lemma nz n : feqb (of_int n) fzero = feqb (of_int n) fzero. Proof. reflexivity. Qed.
Lemma nz12 : feqb (of_int 12) fzero = false. Proof. vm_compute. reflexivity. Qed.
Lemma nz440 : feqb (of_int 440) fzero = false. Proof. vm_compute. reflexivity. Qed.
Lemma nz20 : feqb (of_int 20) fzero = false. Proof. vm_compute. reflexivity. Qed.
Lemma nz10 : feqb (of_int 10) fzero = false. Proof. vm_compute. reflexivity. Qed.
Lemma pos2 : fltb fzero (of_int 2) = true. Proof. vm_compute. reflexivity. Qed.
Lemma pos10 : fltb fzero (of_int 10) = true. Proof. vm_compute. reflexivity. Qed.
Ltac kfacts := first [rewrite nz12 | rewrite nz440 | rewrite nz20 | rewrite nz10 | rewrite pos2 | rewrite pos10 | consts].
Lemma mtof_converts E : converts E mtof_pd (mtof_value E).
Proof.
  apply conv_sends with mtof_inv; [reflexivity | constructor | |].
  - unfold mtof_value, pow32, quot32. rewrite nz12, pos2. cbn [negb].
    intros t x w Hi; inversion Hi; subst. eexists. split; [norm; run kfacts |]. split; [constructor | reflexivity].
  - intros t m w Hi H; inversion Hi; subst. others m H.
Qed.
Inductive ftom_inv : world -> Prop := ftom_i b s : ftom_inv (mkWorld
  [PPass; PPass; PBinK DIVIDE (of_int 440); PBinK MULTIPLY (of_int 12); PBinK ADD (of_int 69); PSeq [CF; CF]; PBinK GREATER_THAN fzero;
   PBox [[TE (whole (-1500))]]; PIf b; PUn LOG2] [] s).
Lemma ftom_converts E : converts E ftom_pd (ftom_value E).
Proof.
  apply conv_sends with ftom_inv; [reflexivity | constructor | |].
  - intros t x w Hi; inversion Hi; subst. unfold ftom_value, quot32. rewrite nz440. cbn [negb].
    destruct (fltb fzero x) eqn:H; eexists; (split; [norm; run ltac:(first [rewrite H | kfacts]) |]); (split; [constructor | reflexivity]).
  - intros t m w Hi H; inversion Hi; subst. others m H.
Qed.
Inductive dbtorms_inv : world -> Prop := dbtorms_i v b s : dbtorms_inv (mkWorld
  [PBox [[TE (whole 10)]]; PBin POW v; PBinK SUBTRACT (of_int 100); PPass; PPass; PSeq [CF; CF]; PBinK GREATER_THAN fzero; PBinK MIN (of_int 485);
   PBox [[TE (whole 0)]]; PIf b; PBinK DIVIDE (of_int 20); PSeq [CA; CA]] [] s).
Lemma dbtorms_converts E : converts E dbtorms_pd (dbto_value E 485 20).
Proof.
  apply conv_sends with dbtorms_inv; [reflexivity | constructor | |].
  - intros t x w Hi; inversion Hi; subst. unfold dbto_value, pow32, quot32. rewrite nz20, pos10. cbn [negb].
    destruct (fltb fzero x) eqn:H; eexists; (split; [norm; run ltac:(first [rewrite H | kfacts]) |]); (split; [constructor | reflexivity]).
  - intros t m w Hi H; inversion Hi; subst. others m H.
Qed.
Inductive dbtopow_inv : world -> Prop := dbtopow_i v b s : dbtopow_inv (mkWorld
  [PBox [[TE (whole 10)]]; PBin POW v; PBinK SUBTRACT (of_int 100); PPass; PPass; PSeq [CF; CF]; PBinK GREATER_THAN fzero;
   PBox [[TE (whole 0)]]; PBinK MIN (of_int 870); PSeq [CA; CA]; PIf b; PBinK DIVIDE (of_int 10)] [] s).
Lemma dbtopow_converts E : converts E dbtopow_pd (dbto_value E 870 10).
Proof.
  apply conv_sends with dbtopow_inv; [reflexivity | constructor | |].
  - intros t x w Hi; inversion Hi; subst. unfold dbto_value, pow32, quot32. rewrite nz10, pos10. cbn [negb].
    destruct (fltb fzero x) eqn:H; eexists; (split; [norm; run ltac:(first [rewrite H | kfacts]) |]); (split; [constructor | reflexivity]).
  - intros t m w Hi H; inversion Hi; subst. others m H.
Qed.
Inductive rmstodb_inv : world -> Prop := rmstodb_i b s : rmstodb_inv (mkWorld
  [PPass; PPass; PSeq [CF; CF]; PBox [[TE (whole 0)]]; PBinK MULTIPLY (of_int 20); PBinK ADD (of_int 100); PBinK MAX fzero; PBinK GREATER_THAN fzero;
   PIf b; PUn LOG10] [] s).
Lemma rmstodb_converts E : converts E rmstodb_pd (todb_value E 20).
Proof.
  apply conv_sends with rmstodb_inv; [reflexivity | constructor | |].
  - intros t x w Hi; inversion Hi; subst. unfold todb_value.
    destruct (fltb fzero x) eqn:H; eexists; (split; [norm; run ltac:(first [rewrite H | kfacts]) |]); (split; [constructor | reflexivity]).
  - intros t m w Hi H; inversion Hi; subst. others m H.
Qed.
Inductive powtodb_inv : world -> Prop := powtodb_i b s : powtodb_inv (mkWorld
  [PPass; PPass; PSeq [CF; CF]; PBox [[TE (whole 0)]]; PBinK ADD (of_int 100); PBinK MAX fzero; PBinK GREATER_THAN fzero; PBinK MULTIPLY (of_int 10);
   PIf b; PUn LOG10] [] s).
Lemma powtodb_converts E : converts E powtodb_pd (todb_value E 10).
Proof.
  apply conv_sends with powtodb_inv; [reflexivity | constructor | |].
  - intros t x w Hi; inversion Hi; subst. unfold todb_value.
    destruct (fltb fzero x) eqn:H; eexists; (split; [norm; run ltac:(first [rewrite H | kfacts]) |]); (split; [constructor | reflexivity]).
  - intros t m w Hi H; inversion Hi; subst. others m H.
Qed.
(** ** midiin *)
Lemma midiin_sends E l : Forall (fun e => 0 <= snd (snd e) < 2 ^ 24) l -> sends E midiin_pd (map value_event l) (midiin_spec l).
Proof.
  intros Hok.
  destruct (simulate E (flatten midiin_pd 0) unit _ value_event (fun _ => midiin_spec) (fun _ w => exists s, w = mkWorld (f_nodes (flatten midiin_pd 0)) [] s)
     (fun _ => Forall (fun e => 0 <= snd (snd e) < 2 ^ 24))) with (s := tt) (l := l) (w := boot (flatten midiin_pd 0))
    as (w & Hp & Hs); [reflexivity | | exact Hok | exists []; reflexivity | refine (sends_of E _ _ _ w _ Hp Hs); reflexivity].
  intros _ [t [x c]] l' w Hk [s ->]. pose proof (Forall_inv Hk) as Hc. pose proof (Forall_inv_tail Hk) as Hl. cbn [snd] in Hc. cbn [value_event midiin_spec].
  assert (Ha : fadd (of_int c) (of_int 1) = of_int (c + 1)) by (apply of_int_fadd; lia).
  eexists tt, [_; _], _. split; [apply plays_one; norm; run ltac:(first [rewrite Ha | consts]) |].
  split; [eexists; reflexivity | split; [cbn [sent]; rewrite ?log_log; reflexivity | split; [reflexivity | exact Hl]]].
Qed.
Lemma realtimein_sends E l : sends E midirealtimein_pd (map value_event l) (realtimein_spec l).
Proof.
  destruct (simulate E (flatten midirealtimein_pd 0) unit _ value_event (fun _ => realtimein_spec) (fun _ w => exists s, w = mkWorld (f_nodes (flatten midirealtimein_pd 0)) [] s)
     (fun _ _ => True)) with (s := tt) (l := l) (w := boot (flatten midirealtimein_pd 0))
    as (w & Hp & Hs); [reflexivity | | exact I | exists []; reflexivity | refine (sends_of E _ _ _ w _ Hp Hs); reflexivity].
  intros _ [t [x c]] l' w _ [s ->]. cbn [value_event realtimein_spec].
  eexists tt, [_; _], _. split; [apply plays_one; norm; run consts |].
  split; [eexists; reflexivity | split; [cbn [sent]; rewrite ?log_log; reflexivity | split; [reflexivity | exact I]]].
Qed.

(** ** div *)
Inductive div_inv : Z -> world -> Prop := div_i k s : div_inv k (mkWorld [PPass; PPass; PPass; PBin INT_DIV (of_int k)] [] s).
Definition small (z : Z) : Prop := Z.abs z <= 2 ^ 24.
Lemma to_int_of_int z : small z -> to_int (of_int z) = Ok z.
Proof.
  intros H. destruct (of_int_exact z H) as [R F]. unfold to_int. rewrite F.
  assert (T : Btrunc (of_int z) = z).
  { apply eq_IZR. rewrite Btrunc_correct by reflexivity. rewrite R. unfold round, scaled_mantissa, cexp, FIX_exp, F2R. cbn [Fnum Fexp].
    rewrite Rmult_1_r. change (bpow radix2 (- 0)) with 1%R. rewrite Rmult_1_r. now rewrite Ztrunc_IZR. }
  rewrite T. unfold fits_int, int_min, int_max, small in *. replace ((-2147483648 <=? z) && (z <=? 2147483647)) with true by lia. reflexivity.
Qed.
Lemma div_sends E k l : small k -> Forall (fun e => small (snd (snd e))) l -> sends E (div_pd (of_int k)) (map div_event l) (div_spec k l).
Proof.
  intros Hk0 Hok.
  destruct (simulate E (flatten (div_pd (of_int k)) 0) Z _ div_event div_spec div_inv (fun k l => small k /\ Forall (fun e => small (snd (snd e))) l)) with (s := k) (l := l) (w := boot (flatten (div_pd (of_int k)) 0))
    as (w & Hp & Hs); [reflexivity | | split; [exact Hk0 | exact Hok] | exact (div_i k []) | refine (sends_of E _ _ _ w _ Hp Hs); reflexivity].
  clear Hk0 Hok. intros q [t [b a]] l' w [Hk Hok] Hi. pose proof (Forall_inv Hok) as Ha. pose proof (Forall_inv_tail Hok) as Hl. cbn [snd] in Ha.
  pose proof (to_int_of_int q Hk) as Ek. pose proof (to_int_of_int a Ha) as Ea.
  inversion Hi; subst. destruct b; cbn [div_event div_spec].
  - destruct (q =? 0) eqn:Z0.
    + assert (E0 : q = 0) by lia. subst q. eexists 0, [_], _. split; [apply plays_one; norm; run ltac:(first [rewrite Ek | consts]) |].
      split; [constructor | split; [reflexivity | split; [reflexivity | split; assumption]]].
    + assert (Hq : c_div a q = Ok (Z.quot a q)).
      { unfold c_div. rewrite Z0. cbn [orb]. replace (a =? int_min) with false; [reflexivity |]. unfold int_min, small in *. lia. }
      destruct q as [| d | d]; [discriminate Z0 | |];
      (eexists _, [_], _; split; [apply plays_one; norm; run ltac:(first [rewrite Ek | rewrite Ea | rewrite Hq | consts]) |]);
      (split; [constructor | split; [reflexivity | split; [reflexivity | split; assumption]]]).
  - eexists a, [], _. split; [apply plays_one; norm; run consts |].
    split; [constructor | split; [cbn; now rewrite log_nil | split; [reflexivity | split; assumption]]].
Qed.
