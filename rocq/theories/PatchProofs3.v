(** swap, int, clip, tgl. *)
From Verif Require Import PatchProofs PatchProofs2 PatchSpec.
From Coq Require Import Lia Reals.
From Flocq Require Import Core.
Open Scope Z_scope.

Definition swap_cases := [LS (T "bang")].
Lemma swap_float E x : plain E swap_words x -> switch_outlet E swap_cases [EF x] = Ok 1%nat.
Proof.
  intros H. pose proof (Forall_inv H) as H1. pose proof (Forall_inv (Forall_inv_tail H)) as H2. cbv beta in H1, H2. clear H.
  apply (switch_float E swap_cases); [exact H2 |]. constructor; [exact H1 | constructor].
Qed.
Lemma swap_bang E : switch_outlet E swap_cases [EB] = Ok 0%nat.
Proof. reflexivity. Qed.
Inductive swap_inv : f32 * f32 -> world -> Prop :=
| swap_i a b s : swap_inv (a, b) (mkWorld [PPass; PPass; PPass; PPass; PVar (EF a); PPass; PPass; PPass; PSeq [CB; CB]; PSeq [CB; CF];
                                     PVar (EF b); PPass; PPass; PPass; PSwitch swap_cases] [] s).
Definition swap_ok (E : env) (l : list (Z * swap_in)) : Prop :=
  Forall (fun e => match snd e with SLeft x => plain E swap_words x | _ => True end) l.
Lemma swap_sends E k l : swap_ok E l -> sends E (swap_pd k) (map swap_event l) (swap_spec (of_int 0) k l).
Proof.
  intros Hok.
  destruct (simulate E (flatten (swap_pd k) 0) (f32 * f32) _ swap_event (fun s => swap_spec (fst s) (snd s)) swap_inv (fun _ => swap_ok E))
    with (s := (of_int 0, k)) (l := l) (w := boot (flatten (swap_pd k) 0))
    as (w & Hp & Hs); [reflexivity | | exact Hok | exact (swap_i (of_int 0) k [])
                      | refine (sends_of E _ _ _ w _ Hp Hs); reflexivity].
  clear. intros v [t i] l' w Hok Hi; inversion Hi as [a b s]; subst; inversion Hok as [| ? ? Hx Hl]; subst; cbn [snd] in Hx.
  destruct i as [x | y |]; cbn [swap_event swap_spec fst snd].
  - pose proof (swap_float E x Hx) as Hsw. norm_in Hsw. eexists (x, b), [_; _], _.
    split; [apply plays_one; norm; run ltac:(first [rewrite Hsw | consts]) |].
    split; [constructor | split; [unfold log; cbn [sent]; now rewrite <- app_assoc | split; [reflexivity | exact Hl]]].
  - eexists (a, y), [], _. split; [apply plays_one; norm; run consts |].
    split; [constructor | split; [cbn; now rewrite log_nil | split; [reflexivity | exact Hl]]].
  - pose proof (swap_bang E) as Hsw. norm_in Hsw. eexists (a, b), [_; _], _.
    split; [apply plays_one; norm; run ltac:(first [rewrite Hsw | consts]) |].
    split; [constructor | split; [unfold log; cbn [sent]; now rewrite <- app_assoc | split; [reflexivity | exact Hl]]].
Qed.

(** ** int *)
Lemma nearbyint_ext md1 md2 (x : f32) : (is_finite x = true -> round_mode md1 (B2R x) = round_mode md2 (B2R x)) ->
  Bnearbyint md1 x = Bnearbyint md2 x.
Proof.
  intros H. destruct (is_finite x) eqn:Fx.
  - destruct (Bnearbyint_correct 24 128 _ md1 x) as (A1 & A2 & A3). destruct (Bnearbyint_correct 24 128 _ md2 x) as (B1 & B2 & B3).
    assert (N : forall y : f32, is_finite y = true -> is_nan y = false) by (intros [] ?; try discriminate; reflexivity).
    rewrite Fx in A2, B2. apply B2R_Bsign_inj; [exact A2 | exact B2 | | rewrite A3, B3 by auto; reflexivity].
    rewrite A1, B1. unfold Generic_fmt.round, Generic_fmt.scaled_mantissa, Generic_fmt.cexp, FIX.FIX_exp. cbn [Z.opp Raux.bpow].
    rewrite !Rmult_1_r, (H eq_refl). reflexivity.
  - destruct x; try discriminate Fx; reflexivity.
Qed.
Lemma floor_trunc lib x : fltb fzero x = true -> unop_value lib FLOOR x = Bnearbyint mode_ZR x.
Proof.
  intros H. apply nearbyint_ext. intros Fx. unfold fltb in H. rewrite Bltb_correct in H by (reflexivity || exact Fx).
  revert H. case Raux.Rlt_bool_spec; [intros H _ | discriminate]. cbn [round_mode]. symmetry. apply Raux.Ztrunc_floor, Rlt_le, H.
Qed.
Lemma ceil_trunc lib x : fltb fzero x = false -> unop_value lib CEIL x = Bnearbyint mode_ZR x.
Proof.
  intros H. apply nearbyint_ext. intros Fx. unfold fltb in H. rewrite Bltb_correct in H by (reflexivity || exact Fx).
  revert H. case Raux.Rlt_bool_spec; [discriminate | intros H _]. cbn [round_mode]. symmetry. apply Raux.Ztrunc_ceil, H.
Qed.
Inductive int_inv : f32 -> world -> Prop :=
| int_i v b s : int_inv v (mkWorld [PPass; PVar (EF v); PPass; PPass; PPass; PPass; PPass; PIf b; PBinK GREATER_THAN fzero; PUn FLOOR; PUn CEIL;
                                PSeq [CA; CA]] [] s).
Lemma int_sends E k l : sends E (int_pd (EF k)) (map swap_event l) (int_spec k l).
Proof.
  destruct (simulate E (flatten (int_pd (EF k)) 0) f32 _ swap_event int_spec int_inv (fun _ _ => True))
    with (s := k) (l := l) (w := boot (flatten (int_pd (EF k)) 0))
    as (w & Hp & Hs); [reflexivity | | exact I | exact (int_i k (negb (feqb k fzero)) [])
                      | refine (sends_of E _ _ _ w _ Hp Hs); reflexivity].
  intros v [t i] l' w _ Hi; inversion Hi as [v' b s]; subst.
  destruct i as [x | y |]; cbn [swap_event int_spec].
  - destruct (fltb fzero x) eqn:Hx.
    + eexists x, [_], _. split; [apply plays_one; norm; run ltac:(first [rewrite Hx | rewrite (floor_trunc _ _ Hx) | consts]) |].
      split; [constructor | split; [reflexivity | split; [reflexivity | exact I]]].
    + eexists x, [_], _. split; [apply plays_one; norm; run ltac:(first [rewrite Hx | rewrite (ceil_trunc _ _ Hx) | consts]) |].
      split; [constructor | split; [reflexivity | split; [reflexivity | exact I]]].
  - eexists y, [], _. split; [apply plays_one; norm; run consts |].
    split; [constructor | split; [cbn; now rewrite log_nil | split; [reflexivity | exact I]]].
  - destruct (fltb fzero v) eqn:Hx.
    + eexists v, [_], _. split; [apply plays_one; norm; run ltac:(first [rewrite Hx | rewrite (floor_trunc _ _ Hx) | consts]) |].
      split; [constructor | split; [reflexivity | split; [reflexivity | exact I]]].
    + eexists v, [_], _. split; [apply plays_one; norm; run ltac:(first [rewrite Hx | rewrite (ceil_trunc _ _ Hx) | consts]) |].
      split; [constructor | split; [reflexivity | split; [reflexivity | exact I]]].
Qed.

(** ** clip *)
Lemma clip_value lo hi x : is_finite lo = true -> is_finite hi = true -> is_finite x = true -> fleb lo hi = true ->
  fmax (fmin x hi) lo = (if fltb x lo then lo else if fltb hi x then hi else x).
Proof.
  intros Fl Fh Fx Hle. unfold fmax, fmin.
  assert (N : forall y : f32, is_finite y = true -> is_nan y = false) by (intros [] ?; try discriminate; reflexivity).
  rewrite (N x Fx), (N hi Fh). unfold fleb, fltb in *.
  rewrite Bleb_correct in Hle by assumption. revert Hle. case Raux.Rle_bool_spec; [intros Hle _ | discriminate].
  destruct (Bltb hi x) eqn:H1.
  - rewrite (N hi Fh), (N lo Fl). rewrite !Bltb_correct in * by assumption. revert H1.
    case Raux.Rlt_bool_spec; [intros H1 _ | discriminate].
    rewrite (Raux.Rlt_bool_false (B2R hi)) by exact Hle. rewrite Raux.Rlt_bool_false; [reflexivity |].
    apply (Rle_trans _ _ _ Hle). apply Rlt_le. exact H1.
  - rewrite (N x Fx), (N lo Fl). reflexivity.
Qed.
Inductive clip_inv : f32 * f32 -> world -> Prop :=
| clip_i lo hi s : clip_inv (lo, hi) (mkWorld [PPass; PPass; PBin MIN hi; PBin MAX lo; PPass; PPass] [] s).
Lemma clip_sends E lo hi l : clip_ok lo hi l -> sends E (clip_pd lo hi) (map clip_event l) (clip_spec lo hi l).
Proof.
  intros Hok.
  destruct (simulate E (flatten (clip_pd lo hi) 0) (f32 * f32) _ clip_event (fun s => clip_spec (fst s) (snd s)) clip_inv (fun s => clip_ok (fst s) (snd s)))
    with (s := (lo, hi)) (l := l) (w := boot (flatten (clip_pd lo hi) 0))
    as (w & Hp & Hs); [reflexivity | | exact Hok | exact (clip_i lo hi [])
                      | refine (sends_of E _ _ _ w _ Hp Hs); reflexivity].
  clear. intros v [t i] l' w Hok Hi; destruct Hi as [a b s]; cbn [fst snd] in Hok |- *.
  destruct i as [x | y | y]; cbn [clip_event clip_spec clip_ok] in Hok |- *.
  - destruct Hok as ((Fl & Fh & Hle) & Fx & Hl). eexists (a, b), [_], _.
    split; [apply plays_one; norm; run consts |]. rewrite (clip_value a b x Fl Fh Fx Hle).
    split; [constructor | split; [reflexivity | split; [reflexivity | exact Hl]]].
  - destruct Hok as (_ & Hl). eexists (y, b), [], _. split; [apply plays_one; norm; run consts |].
    split; [constructor | split; [cbn; now rewrite log_nil | split; [reflexivity | exact Hl]]].
  - destruct Hok as (_ & Hl). eexists (a, y), [], _. split; [apply plays_one; norm; run consts |].
    split; [constructor | split; [cbn; now rewrite log_nil | split; [reflexivity | exact Hl]]].
Qed.

(** ** tgl *)
Inductive tgl_inv : bool -> world -> Prop :=
| tgl_i on s : tgl_inv on (mkWorld [PPass; PBinK EQ fzero; PPass; PVar (EF (if on then fzero else fone)); PPass; PPass; PPass] [] s).
Lemma tgl_sends E l : sends E tgl_pd (map tgl_event l) (tgl_spec false l).
Proof.
  destruct (simulate E (flatten tgl_pd 0) bool _ tgl_event tgl_spec tgl_inv (fun _ _ => True))
    with (s := false) (l := l) (w := boot (flatten tgl_pd 0))
    as (w & Hp & Hs); [reflexivity | | exact I | exact (tgl_i false [])
                      | refine (sends_of E _ _ _ w _ Hp Hs); reflexivity].
  intros v [t i] l' w _ Hi; inversion Hi as [on s]; subst.
  destruct i as [| x]; cbn [tgl_event tgl_spec].
  - destruct v.
    + eexists false, [_], _. split; [apply plays_one; norm; run consts |].
      split; [exact (tgl_i false _) | split; [reflexivity | split; [reflexivity | exact I]]].
    + eexists true, [_], _. split; [apply plays_one; norm; run consts |].
      split; [exact (tgl_i true _) | split; [reflexivity | split; [reflexivity | exact I]]].
  - destruct (feqb x fzero) eqn:Hx.
    + eexists false, [_], _. split; [apply plays_one; norm; run ltac:(first [rewrite Hx | consts]) |].
      split; [exact (tgl_i false _) | split; [reflexivity | split; [reflexivity | exact I]]].
    + eexists true, [_], _. split; [apply plays_one; norm; run ltac:(first [rewrite Hx | consts]) |].
      split; [exact (tgl_i true _) | split; [reflexivity | split; [reflexivity | exact I]]].
Qed.
