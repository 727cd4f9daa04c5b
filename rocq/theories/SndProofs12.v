(** tabread~ and tabread4~. *)
From Verif Require Import SndModel SndSpec SndProofs SndProofs2 SndProofs3 SndProofs4 SndProofs5 SndProofs6 SndProofs8 Float32Facts.
From Flocq Require Import Core.
From Coq Require Import Reals Lia Lra.
Local Open Scope R_scope.
Lemma round_NE0 r : round radix2 (FIX_exp 0) ZnearestE r = IZR (ZnearestE r).
Proof. unfold round, F2R, scaled_mantissa, cexp, FIX_exp. cbn. rewrite !Rmult_1_r. reflexivity. Qed.
Lemma near_R x : R32 (Bnearbyint mode_NE x) = IZR (ZnearestE (R32 x)) /\ is_finite (Bnearbyint mode_NE x) = is_finite x.
Proof. destruct (Bnearbyint_correct 24 128 _ mode_NE x) as (A & B & _). rewrite A, B. split; auto. apply round_NE0. Qed.
Lemma u32_small z : (0 <= z < 4294967296)%Z -> u32 z = z.
Proof. intro H. unfold u32. rewrite Z.mod_small; auto. Qed.
Definition not_nan (x : f32) := is_nan x = false.
Section Machine.
Variable M : machine.
Hypothesis OK : machine_ok M.
Notation F := (enc (t_nan M)).
Definition clamp (x k : f32) : f32 := 
  match t_arch M with AVX | SSE => max_x86 (min_x86 x k) fzero | Neon7 | Neon8 => max_neon (min_neon x k) fzero | Scalar => fmax (fmin x k) fzero end.
Lemma clamp_eval x k : hv_max M (hv_min M (F x) (F k)) (F fzero) = F (clamp x k).
Proof. unfold hv_max, hv_min, clamp. destruct (t_arch M); rewrite !vf by auto; reflexivity. Qed.
Lemma limits mn mx x k : picks_min mn -> picks_max mx -> is_nan x = false -> is_finite k = true -> 0 <= R32 k ->
  is_finite (mx (mn x k) fzero) = true /\ 0 <= R32 (mx (mn x k) fzero) <= R32 k /\ (is_finite x = true -> R32 (mx (mn x k) fzero) = Rmax (Rmin (R32 x) (R32 k)) 0).
Proof.
  intros A B Nx Fk Pk. assert (Nk : is_nan k = false) by (destruct k; auto; discriminate). destruct (A x k Nx Nk) as [N1 E1]. destruct (B (mn x k) fzero N1 eq_refl) as [N2 E2].
  rewrite E1, (ext_finite k Fk) in E2. change (ext fzero) with 0 in E2. pose proof (finite_lt k Fk) as L.
  assert (E : 0 <= Rmax (Rmin (ext x) (R32 k)) 0 <= R32 k) by (unfold Rmax, Rmin; destruct (Rle_dec (ext x) (R32 k)); destruct (Rle_dec _ 0); lra).
  assert (Fm : is_finite (mx (mn x k) fzero) = true).
  { set (m := mx (mn x k) fzero) in *. clearbody m. destruct m as [s|s| |s p e H]; auto; try discriminate.
    exfalso. cbn [ext] in E2. pose proof big_pos. rewrite <- E2 in E. destruct s; lra. }
  split; auto. rewrite (ext_finite _ Fm) in E2. rewrite E2. split; auto. intro Fx. rewrite (ext_finite x Fx). reflexivity.
Qed.
Lemma clamp_ok x k : is_finite k = true -> 0 <= R32 k ->
  (clamp x k = B754_nan /\ neon M /\ x = B754_nan) \/
  (is_finite (clamp x k) = true /\ 0 <= R32 (clamp x k) <= R32 k /\ (is_finite x = true -> R32 (clamp x k) = Rmax (Rmin (R32 x) (R32 k)) 0)).
Proof.
  intros Fk Pk. destruct (is_nan x) eqn:Nx.
  - assert (x = B754_nan) by (destruct x; auto; discriminate). subst x.
    assert (Nk : is_nan k = false) by (destruct k; auto; discriminate).
    assert (Z : forall mx, picks_max mx -> is_finite (mx k fzero) = true /\ 0 <= R32 (mx k fzero) <= R32 k).
    { intros mx P. destruct (limits min_x86 mx k k min_x86_ok P Nk Fk Pk) as (A & B & _).
      assert (min_x86 k k = k) by (unfold min_x86; destruct (fltb k k); auto). rewrite H in *. auto. }
    unfold clamp, neon. destruct (t_arch M); [right|right|left|left|right]; auto.
    + change (min_x86 B754_nan k) with k. destruct (Z max_x86 max_x86_ok). split; auto. split; auto. discriminate.
    + change (min_x86 B754_nan k) with k. destruct (Z max_x86 max_x86_ok). split; auto. split; auto. discriminate.
    + change (fmin B754_nan k) with k. destruct (Z fmax fmax_ok). split; auto. split; auto. discriminate.
  - right. unfold clamp. destruct (t_arch M); apply limits; auto using min_x86_ok, max_x86_ok, min_neon_ok, max_neon_ok, fmin_ok, fmax_ok.
Qed.
Definition x86 : bool := match t_arch M with AVX | SSE => true | _ => false end.
Lemma cast_ok c : is_finite c = true -> 0 <= R32 c <= 16777216 ->
  hv_cast_fi M (F c) = Ok (if x86 then ZnearestE (R32 c) else Zfloor (R32 c)).
Proof.
  intros Fc B.
  assert (T : Btrunc c = Zfloor (R32 c)) by (rewrite trunc_R; apply Ztrunc_floor; lra).
  assert (L : (0 <= Zfloor (R32 c) <= 16777216)%Z). { split; [apply Zfloor_lub; lra|]. apply le_IZR. apply Rle_trans with (1 := Zfloor_lb _). lra. }
  assert (N : Btrunc (Bnearbyint mode_NE c) = ZnearestE (R32 c)) by (rewrite trunc_R; destruct (near_R c) as [-> _]; apply Ztrunc_IZR).
  assert (LN : (0 <= ZnearestE (R32 c) <= 16777216)%Z).
  { split; [rewrite <- (Znearest_imp (fun x => negb (Z.even x)) 0 0) by (rewrite Rminus_0_r, Rabs_R0; lra); apply Zrnd_le; [apply valid_rnd_N|lra]|].
    rewrite <- (Zrnd_IZR ZnearestE 16777216) by apply valid_rnd_N. apply Zrnd_le; [apply valid_rnd_N|lra]. }
  unfold hv_cast_fi, x86. rewrite vf by auto. 
  assert (G : forall z, (0 <= z <= 16777216)%Z -> fits_int z = true). { intros z Hz. unfold fits_int, int_min, int_max. apply andb_true_iff. split; apply Z.leb_le; lia. }
  destruct (t_arch M).
  - unfold cvt_sse. rewrite Fc, N, G by lia. rewrite u32_small by lia. reflexivity.
  - unfold cvt_sse. rewrite Fc, N, G by lia. rewrite u32_small by lia. reflexivity.
  - assert (E : cvt_neon c = Z.max int_min (Z.min int_max (Btrunc c))) by (destruct c; auto; discriminate). rewrite E, T. unfold int_min, int_max. rewrite Z.min_r, Z.max_r, u32_small by lia. reflexivity.
  - assert (E : cvt_neon c = Z.max int_min (Z.min int_max (Btrunc c))) by (destruct c; auto; discriminate). rewrite E, T. unfold int_min, int_max. rewrite Z.min_r, Z.max_r, u32_small by lia. reflexivity.
  - unfold to_int. rewrite Fc, T, G by lia. cbn [obind]. rewrite u32_small by lia. reflexivity.
Qed.
Lemma cast_nan : neon M -> hv_cast_fi M (F B754_nan) = Ok 0%Z.
Proof. intros [H|H]; unfold hv_cast_fi; rewrite H, vf by auto; reflexivity. Qed.
Lemma read_ok t i : (0 <= i < zlen t)%Z -> (zlen t <= 16777216)%Z -> hv_tabread M t i = Ok (F (sample t i)) /\ In (sample t i) t.
Proof.
  intros H L. unfold hv_tabread, sample. replace (i <? 2147483648)%Z with true by (symmetry; apply Z.ltb_lt; lia). replace (i <? zlen t)%Z with true by (symmetry; apply Z.ltb_lt; lia).
  split; [reflexivity|]. apply nth_In. unfold zlen in H. lia.
Qed.
Lemma less n k : (0 <= k <= n)%Z -> (n <= 16777216)%Z -> is_finite (fsub (of_int n) (of_int k)) = true /\ R32 (fsub (of_int n) (of_int k)) = IZR (n - k).
Proof.
  intros Hk Hn. destruct (of_int_exact n) as [A1 A2]; [change (2 ^ 24)%Z with 16777216%Z; lia|]. destruct (of_int_exact k) as [B1 B2]; [change (2 ^ 24)%Z with 16777216%Z; lia|].
  pose proof (Bminus_correct 24 128 _ _ mode_NE (of_int n) (of_int k) A2 B2) as C. rewrite A1, B1, <- minus_IZR in C.
  rewrite round_generic in C; [|apply valid_rnd_N|].
  - rewrite Rlt_bool_true in C; [destruct C as (C1 & C2 & _); auto|]. rewrite <- abs_IZR. replace (bpow radix2 128) with (IZR (2 ^ 128)) by (apply (IZR_Zpower radix2); lia). apply IZR_lt. lia.
  - replace (IZR (n - k)) with (IZR (n - k) * bpow radix2 0) by (cbn; lra). apply fmt32; [change (2 ^ 24)%Z with 16777216%Z; lia|lia].
Qed.
Lemma tabread_eval t x : snd_out M (tabread_sig t) [F x] 0 =
  let! i := hv_cast_fi M (F (clamp x (fsub (of_int (zlen t)) fone))) in hv_tabread M t i.
Proof. rewrite <- clamp_eval. run_patch. destruct (hv_cast_fi M _); reflexivity. Qed.
Lemma one_is : fone = of_int 1. Proof. reflexivity. Qed.
Lemma tabread_any t x : (1 <= zlen t <= 16777216)%Z -> exists y, shows_sample M (tabread_sig t) [x] y /\ In y t.
Proof.
  intro H. unfold shows_sample. cbn [map]. rewrite tabread_eval, one_is. destruct (less (zlen t) 1 ltac:(lia) ltac:(lia)) as [F1 R1].
  assert (P : 0 <= R32 (fsub (of_int (zlen t)) (of_int 1))) by (rewrite R1; apply IZR_le; lia).
  destruct (clamp_ok x _ F1 P) as [(-> & N & _)|(Fc & B & _)].
  - rewrite cast_nan by auto. cbn [obind]. destruct (read_ok t 0 ltac:(lia) ltac:(lia)) as [-> I]. eexists. split; [eexists; split; [reflexivity|apply vf; auto]|auto].
  - rewrite R1 in B. assert (B2 : IZR (zlen t - 1) <= 16777216) by (apply IZR_le; lia). rewrite cast_ok by (auto; lra). cbn [obind].
    set (c := R32 (clamp x _)) in *.
    assert (I1 : (0 <= Zfloor c <= zlen t - 1)%Z). { split; [apply Zfloor_lub; lra|]. apply le_IZR. apply Rle_trans with (1 := Zfloor_lb _). lra. }
    assert (I2 : (0 <= ZnearestE c <= zlen t - 1)%Z).
    { split; [rewrite <- (Zrnd_IZR ZnearestE 0)|rewrite <- (Zrnd_IZR ZnearestE (zlen t - 1)) by apply valid_rnd_N]; try apply Zrnd_le; try apply valid_rnd_N; lra. }
    destruct (read_ok t (if x86 then ZnearestE c else Zfloor c)) as [-> I]; [destruct x86; lia|lia|].
    eexists. split; [eexists; split; [reflexivity|apply vf; auto]|auto].
Qed.
Lemma tabread_at t x : (1 <= zlen t <= 16777216)%Z -> is_finite x = true ->
  shows_sample M (tabread_sig t) [x] (sample t (if x86 then ZnearestE (position (zlen t - 1) x) else Zfloor (position (zlen t - 1) x))).
Proof.
  intros H Fx. unfold shows_sample. cbn [map]. rewrite tabread_eval, one_is. destruct (less (zlen t) 1 ltac:(lia) ltac:(lia)) as [F1 R1].
  assert (P : 0 <= R32 (fsub (of_int (zlen t)) (of_int 1))) by (rewrite R1; apply IZR_le; lia).
  destruct (clamp_ok x _ F1 P) as [(_ & _ & ->)|(Fc & B & E)]; [discriminate|].
  rewrite R1 in B, E. assert (B2 : IZR (zlen t - 1) <= 16777216) by (apply IZR_le; lia). rewrite cast_ok by (auto; lra). cbn [obind].
  unfold position, real. rewrite <- (E Fx). set (c := R32 (clamp x _)) in *.
  assert (I1 : (0 <= Zfloor c <= zlen t - 1)%Z). { split; [apply Zfloor_lub; lra|]. apply le_IZR. apply Rle_trans with (1 := Zfloor_lb _). lra. }
  assert (I2 : (0 <= ZnearestE c <= zlen t - 1)%Z).
  { split; [rewrite <- (Zrnd_IZR ZnearestE 0)|rewrite <- (Zrnd_IZR ZnearestE (zlen t - 1)) by apply valid_rnd_N]; try apply Zrnd_le; try apply valid_rnd_N; lra. }
  destruct (read_ok t (if x86 then ZnearestE c else Zfloor c)) as [-> I]; [destruct x86; lia|lia|].
  eexists; split; [reflexivity|apply vf; auto].
Qed.
(** tabread4~ *)
Lemma tabread4_eval t x : snd_out M (tabread4_sig t) [F x] 0 =
  let c := clamp x (fsub (of_int (zlen t)) (of_int 2)) in let f := Bnearbyint mode_DN c in
  let! i := hv_cast_fi M (F f) in let! a := hv_tabread M t i in let! b := hv_tabread M t (u32 (i + u32 1)) in
  Ok (hv_fma M (F (fsub (of_bits b) (of_bits a))) (F (fsub c f)) a).
Proof.
  cbv zeta. remember (clamp x (fsub (of_int (zlen t)) (of_int 2))) as c eqn:Ec.
  assert (E : F c = hv_max M (hv_min M (F x) (F (fsub (of_int (zlen t)) (of_int 2)))) (F fzero)) by (subst c; symmetry; apply clamp_eval).
  run_patch. rewrite <- E. rewrite !vf by auto. destruct (hv_cast_fi M _) as [i| |]; try reflexivity.
  assert (U : forall j, hv_tabread M t j <> UB) by (intro j; unfold hv_tabread; destruct (_ && _); discriminate).
  pose proof (U i). pose proof (U (u32 (i + u32 1))).
  destruct (hv_tabread M t i) as [a| |]; destruct (hv_tabread M t (u32 (i + u32 1))) as [b| |]; try congruence; reflexivity.
Qed.
Definition last2 (t : list f32) : f32 := fsub (of_int (zlen t)) (of_int 2).
Lemma read4 t x : (2 <= zlen t <= 16777216)%Z -> is_finite (clamp x (last2 t)) = true -> 0 <= R32 (clamp x (last2 t)) <= IZR (zlen t - 2) ->
  let c := clamp x (last2 t) in let i := Zfloor (R32 c) in
  (0 <= i <= zlen t - 2)%Z /\
  snd_out M (tabread4_sig t) [F x] 0 = Ok (F (fma_x M (fsub (sample t (i + 1)) (sample t i)) (fsub c (Bnearbyint mode_DN c)) (sample t i))).
Proof.
  intros H Fc B. cbv zeta. rewrite tabread4_eval. cbv zeta. fold (last2 t). set (c := clamp x (last2 t)) in *.
  assert (B2 : IZR (zlen t - 2) <= 16777216) by (apply IZR_le; lia).
  assert (I1 : (0 <= Zfloor (R32 c) <= zlen t - 2)%Z). { split; [apply Zfloor_lub; lra|]. apply le_IZR. apply Rle_trans with (1 := Zfloor_lb _). lra. }
  split; auto. destruct (floor_R c) as [F1 F2]. rewrite Fc in F2.
  assert (I2 : 0 <= IZR (Zfloor (R32 c)) <= 16777216) by (split; apply IZR_le; lia).
  rewrite cast_ok by (rewrite ?F1; auto). rewrite F1, Zfloor_IZR.
  assert (Q : ZnearestE (IZR (Zfloor (R32 c))) = Zfloor (R32 c)) by (apply (Zrnd_IZR ZnearestE)).
  rewrite Q. replace (if x86 then _ else _) with (Zfloor (R32 c)) by (destruct x86; auto). cbn [obind].
  destruct (read_ok t (Zfloor (R32 c)) ltac:(lia) ltac:(lia)) as [-> _]. cbn [obind].
  rewrite (u32_small 1), (u32_small (Zfloor (R32 c) + 1)) by lia.
  destruct (read_ok t (Zfloor (R32 c) + 1) ltac:(lia) ltac:(lia)) as [-> _]. cbn [obind].
  rewrite !vf, fma_eval by auto. reflexivity.
Qed.
Lemma tabread4_any t x : (2 <= zlen t <= 16777216)%Z -> exists y, shows_sample M (tabread4_sig t) [x] y.
Proof.
  intro H. unfold shows_sample. cbn [map]. destruct (less (zlen t) 2 ltac:(lia) ltac:(lia)) as [F1 R1]. fold (last2 t) in F1, R1.
  assert (P : 0 <= R32 (last2 t)) by (rewrite R1; apply IZR_le; lia).
  destruct (clamp_ok x _ F1 P) as [(E & N & _)|(Fc & B & _)].
  - rewrite tabread4_eval. cbv zeta. fold (last2 t). rewrite E. change (Bnearbyint mode_DN B754_nan) with (B754_nan : f32). rewrite cast_nan by auto. cbn [obind].
    destruct (read_ok t 0 ltac:(lia) ltac:(lia)) as [-> _]. cbn [obind]. rewrite (u32_small 1), (u32_small (0 + 1)) by lia.
    destruct (read_ok t (0 + 1) ltac:(lia) ltac:(lia)) as [-> _]. cbn [obind]. eexists. eexists. split; reflexivity.
  - rewrite R1 in B. destruct (read4 t x H Fc B) as [_ ->]. eexists. eexists. split; reflexivity.
Qed.
Lemma tabread4_ok t x : (2 <= zlen t <= 16777216)%Z -> is_finite x = true ->
  (forall y, In y t -> is_finite y = true /\ Rabs (real y) <= 1) ->
  let p := position (zlen t - 2) x in let i := Zfloor p in
  (0 <= i < zlen t - 1)%Z /\
  exists y, shows_sample M (tabread4_sig t) [x] y /\
  within (/ 1000000) y (real (sample t i) + (real (sample t (i + 1)) - real (sample t i)) * (p - IZR i)).
Proof.
  intros H Fx T. cbv zeta. destruct (less (zlen t) 2 ltac:(lia) ltac:(lia)) as [F1 R1]. fold (last2 t) in F1, R1.
  assert (P : 0 <= R32 (last2 t)) by (rewrite R1; apply IZR_le; lia).
  destruct (clamp_ok x _ F1 P) as [(_ & _ & ->)|(Fc & B & E)]; [discriminate|]. specialize (E Fx). rewrite R1 in B, E.
  destruct (read4 t x H Fc B) as [I S]. assert (PE : position (zlen t - 2) x = R32 (clamp x (last2 t))) by (symmetry; exact E). rewrite PE. set (c := clamp x (last2 t)) in *. set (i := Zfloor (R32 c)) in *.
  split; [lia|]. eexists. split; [eexists; split; [exact S|apply vf; auto]|].
  destruct (T (sample t i)) as [A1 A2]; [apply read_ok; lia|]. destruct (T (sample t (i + 1))) as [B1 B2]; [apply read_ok; lia|]. unfold real in *.
  apply Rabs_le_inv in A2. apply Rabs_le_inv in B2. pose proof (Zfloor_lb (R32 c)) as L1. pose proof (Zfloor_ub (R32 c)) as L2. fold i in L1, L2.
  destruct (floor_R c) as [G1 G2]. rewrite Fc in G2. fold i in G1.
  assert (N1 : near (fsub (sample t (i + 1)) (sample t i)) (R32 (sample t (i + 1)) - R32 (sample t i)) (/ 5000000)).
  { eapply near_sub with (A := 2); [apply near_self; auto|apply near_self; auto|apply Rabs_le; lra|lra|unfold u; lra]. }
  assert (N2 : near (fsub c (Bnearbyint mode_DN c)) (R32 c - IZR i) (/ 10000000)).
  { rewrite <- G1. eapply near_sub with (A := 1); [apply near_self; auto|apply near_self; auto|apply Rabs_le; rewrite G1; lra|lra|unfold u; lra]. }
  rewrite Rplus_comm.
  eapply near_fma with (A := 2) (B := 1) (K := 3) (P := / 1800000); [exact N1|exact N2|apply near_self; auto|apply Rabs_le; lra|apply Rabs_le; lra| |lra|lra|lra|unfold u; lra|lra|unfold u; lra].
  apply Rle_trans with (1 := Rabs_triang _ _). rewrite Rabs_mult.
  assert (Rabs (R32 (sample t (i + 1)) - R32 (sample t i)) * Rabs (R32 c - IZR i) <= 2 * 1) by (apply Rmult_le_compat; try apply Rabs_pos; apply Rabs_le; lra).
  assert (Rabs (R32 (sample t i)) <= 1) by (apply Rabs_le; lra). lra.
Qed.
(** Tables of one sample, of none. *)
Lemma low mn mx x k : picks_min mn -> picks_max mx -> is_nan x = false -> is_finite k = true -> R32 k <= 0 ->
  is_finite (mx (mn x k) fzero) = true /\ R32 (mx (mn x k) fzero) = 0.
Proof.
  intros A B Nx Fk Pk. assert (Nk : is_nan k = false) by (destruct k; auto; discriminate). destruct (A x k Nx Nk) as [N1 E1]. destruct (B (mn x k) fzero N1 eq_refl) as [N2 E2].
  rewrite E1, (ext_finite k Fk) in E2. change (ext fzero) with 0 in E2.
  assert (E : Rmax (Rmin (ext x) (R32 k)) 0 = 0) by (unfold Rmax, Rmin; destruct (Rle_dec (ext x) (R32 k)); destruct (Rle_dec _ 0); lra).
  rewrite E in E2. assert (Fm : is_finite (mx (mn x k) fzero) = true).
  { set (m := mx (mn x k) fzero) in *. clearbody m. destruct m as [s|s| |s p e H]; auto; try discriminate.
    exfalso. cbn [ext] in E2. pose proof big_pos. destruct s; lra. }
  split; auto. rewrite (ext_finite _ Fm) in E2. auto.
Qed.
Lemma tabread4_one y x : is_nan x = false -> snd_out M (tabread4_sig [y]) [F x] 0 = AssertFail.
Proof.
  intro N. rewrite tabread4_eval. cbv zeta. fold (last2 [y]).
  assert (K : is_finite (last2 [y]) = true /\ R32 (last2 [y]) <= 0).
  { unfold last2. change (zlen [y]) with 1%Z. assert (E : B2SF (fsub (of_int 1) (of_int 2)) = SpecFloat.S754_finite true 8388608 (-23)) by (vm_compute; reflexivity).
    split; [rewrite <- is_finite_SF_B2SF, E; reflexivity|]. rewrite <- SF2R_B2SF, E. cbn [SF2R]. apply F2R_le_0. cbn. lia. }
  destruct K as [K1 K2].
  assert (C : is_finite (clamp x (last2 [y])) = true /\ R32 (clamp x (last2 [y])) = 0).
  { unfold clamp. destruct (t_arch M); apply low; auto using min_x86_ok, max_x86_ok, min_neon_ok, max_neon_ok, fmin_ok, fmax_ok. }
  destruct C as [C1 C2]. set (c := clamp x _) in *. destruct (floor_R c) as [F1 F2]. rewrite C1 in F2. rewrite C2 in F1. change 0 with (IZR 0) in F1 at 1. rewrite Zfloor_IZR in F1.
  rewrite cast_ok by (auto; rewrite F1; lra). rewrite F1, Zfloor_IZR. assert (Q : ZnearestE 0 = 0%Z) by apply (Zrnd_IZR ZnearestE). rewrite Q.
  replace (if x86 then 0%Z else 0%Z) with 0%Z by (destruct x86; auto). reflexivity.
Qed.
End Machine.
