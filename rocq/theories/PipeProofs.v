(** Proofs about the pipe model: inductive invariant and its consequences. *)
From Verif Require Import PipeModel.
Require Import ZifyBool ZifyNat.

(** ** Memory lemmas *)
Lemma upd_same m a v : upd m a v a = v.
Proof. unfold upd; rewrite Z.eqb_refl; reflexivity. Qed.
Lemma upd_other m a v x : x <> a -> upd m a v x = m x.
Proof. unfold upd; intros; destruct (Z.eqb_spec x a); congruence. Qed.

Lemma wr32_other m a v x : x < a \/ a + 4 <= x -> wr32 m a v x = m x.
Proof. intros; unfold wr32; repeat rewrite upd_other by lia; reflexivity. Qed.

Lemma rd32_ext m m' a : (forall x, a <= x < a + 4 -> m' x = m x) -> rd32 m' a = rd32 m a.
Proof. intros H; unfold rd32; rewrite !H by lia; reflexivity. Qed.

Lemma rd32_wr32_same m a v : 0 <= v < 4294967296 -> rd32 (wr32 m a v) a = v.
Proof.
  intros Hv; unfold rd32, wr32.
  rewrite upd_same.
  rewrite !(upd_other _ (a+3)) by lia. rewrite upd_same.
  rewrite !(upd_other _ (a+2)) by lia. rewrite upd_same.
  rewrite !(upd_other _ (a+1)) by lia. rewrite upd_same.
  Z.div_mod_to_equations; lia.
Qed.

Lemma rd32_wr32_other m a v b : b + 4 <= a \/ a + 4 <= b -> rd32 (wr32 m a v) b = rd32 m b.
Proof. intros; apply rd32_ext; intros; apply wr32_other; lia. Qed.

(** ** Records laid out in memory *)
Definition good (r : list Z) : Prop :=
  0 < zlen r /\ zlen r mod 4 = 0 /\ zlen r + 8 < 4294967296.

Definition bytes_at (m : mem) (a : Z) (r : list Z) (k : nat) : Prop :=
  forall i, (i < k)%nat -> m (a + Z.of_nat i) = nth i r 0.

Fixpoint seg (m : mem) (a : Z) (rs : list (list Z)) (b : Z) : Prop :=
  match rs with
  | [] => a = b
  | r :: rs' => good r /\ rd32 m a = zlen r /\ bytes_at m (a + 4) r (length r)
               /\ seg m (a + 4 + zlen r) rs' b
  end.

Lemma seg_le m rs : forall a b, seg m a rs b -> a <= b /\ (b - a) mod 4 = 0.
Proof.
  induction rs as [|r rs IH]; cbn [seg]; intros a b H.
  - subst; rewrite Z.sub_diag; split; [lia|reflexivity].
  - destruct H as (Hg & _ & _ & H). apply IH in H. destruct Hg as (H1 & H2 & _).
    destruct H. split; [lia|]. Z.div_mod_to_equations; lia.
Qed.

Lemma seg_ext m m' rs : forall a b,
  seg m a rs b -> (forall x, a <= x < b -> m' x = m x) -> seg m' a rs b.
Proof.
  induction rs as [|r rs IH]; cbn [seg]; intros a b H Hx; [exact H|].
  destruct H as (Hg & Hr & Hb & H).
  pose proof (seg_le _ _ _ _ H) as [Hle _]. destruct Hg as (Hg1 & Hg2).
  split; [split; assumption|]. split; [|split].
  - rewrite <- Hr. apply rd32_ext; intros; apply Hx; lia.
  - intros i Hi. rewrite Hx; [apply Hb; exact Hi|]. unfold zlen in *; lia.
  - apply IH; [exact H|]. intros; apply Hx; lia.
Qed.

Lemma seg_snoc m rs : forall a b r,
  seg m a rs b -> good r -> rd32 m b = zlen r -> bytes_at m (b + 4) r (length r) ->
  seg m a (rs ++ [r]) (b + 4 + zlen r).
Proof.
  induction rs as [|x rs IH]; cbn [seg app]; intros a b r H Hg Hr Hb.
  - subst a. repeat (split; [assumption|]). reflexivity.
  - destruct H as (? & ? & ? & H). repeat (split; [assumption|]). apply IH; assumption.
Qed.

(** ** The invariant *)

(** Committed write head: where the next committed record will start. *)
Definition cw (s : pipe) : Z :=
  match pp s with
  | P_wrapstop _ old | P_wraploop _ old | P_commit _ old => old
  | _ => wh s
  end.

(** [w = None]: unread records [f] are contiguous from readHead to the write head.
    [w = Some e]: unread records [f] run from readHead to the LOOP mark at [e], followed
    by [bk] from offset 0 to the write head. *)
Definition lay (s : pipe) (w : option Z) (f bk : list (list Z)) : Prop :=
  0 <= rh s /\ 0 <= cw s /\ cw s + 4 <= len s /\ rd32 (buf s) (cw s) = 0 /\
  rh s mod 4 = 0 /\ cw s mod 4 = 0 /\ len s < 4294967296 /\
  match w with
  | None => bk = [] /\ seg (buf s) (rh s) f (cw s)
  | Some e => cw s + 4 <= rh s /\ seg (buf s) (rh s) f e /\ e + 4 <= len s /\
              rd32 (buf s) e = HLP_LOOP /\ seg (buf s) 0 bk (cw s)
  end.

Definition pinv (s : pipe) (w : option Z) : Prop :=
  match pp s with
  | P_idle => rem s = len s - wh s
  | P_enter r => good r /\ rem s = len s - wh s
  | P_check r rhs => good r /\ rem s = len s - wh s /\ rhs mod 4 = 0 /\ 0 <= rhs /\
      (if wh s <? rhs then match w with None => True | Some _ => rhs <= rh s end
       else w = None /\ rhs <= rh s)
  | P_wrapstop r old => good r /\ w = None /\ wh s = 0 /\ rem s = len s /\ zlen r + 8 <= rh s
  | P_wraploop r old => good r /\ w = None /\ wh s = 0 /\ rem s = len s /\ zlen r + 8 <= rh s
      /\ rd32 (buf s) 0 = 0
  | P_fill r i => good r /\ rem s = len s - wh s /\ wh s + 8 + zlen r <= len s /\
      (w <> None -> wh s + 8 + zlen r <= rh s) /\ (i <= length r)%nat /\
      bytes_at (buf s) (wh s + 4) r i
  | P_prod r => good r /\ rem s = len s - wh s /\ wh s + 8 + zlen r <= len s /\
      (w <> None -> wh s + 8 + zlen r <= rh s) /\ bytes_at (buf s) (wh s + 4) r (length r)
  | P_commit r old => good r /\ wh s = old + 4 + zlen r /\ rem s = len s - wh s /\
      wh s + 4 <= len s /\ (w <> None -> wh s + 4 <= rh s) /\ rd32 (buf s) (wh s) = 0 /\
      bytes_at (buf s) (old + 4) r (length r)
  end.

Definition cinv (s : pipe) (w : option Z) (f bk : list (list Z)) : Prop :=
  match cp s with
  | C_idle => sent s = recv s ++ f ++ bk
  | C_loop => sent s = recv s ++ f ++ bk /\ f = [] /\ w = Some (rh s)
  | C_again => sent s = recv s ++ f ++ bk /\ rh s = 0
  | C_have => sent s = recv s ++ f ++ bk /\ f <> []
  | C_read n acc => sent s = recv s ++ f ++ bk /\
      exists r t, f = r :: t /\ n = zlen r /\ acc = firstn (length acc) r /\
                  (length acc <= length r)%nat
  | C_cons1 | C_cons2 =>
      exists r t q, f = r :: t /\ recv s = q ++ [r] /\ sent s = q ++ f ++ bk
  end.

Definition Inv (s : pipe) (w : option Z) (f bk : list (list Z)) : Prop :=
  lay s w f bk /\ pinv s w /\ cinv s w f bk.


Ltac dmod := Z.div_mod_to_equations; lia.

Lemma in_buf_true s a k : 0 <= a -> a + k <= len s -> in_buf s a k = true.
Proof. unfold in_buf; lia. Qed.

Lemma init_inv junk n : 4 <= n < 4294967296 ->
  exists s, hLp_init junk n = Ok s /\ Inv s None [] [] /\
            sent s = [] /\ recv s = [] /\ refused s = [] /\ len s = n /\ pp s = P_idle /\ cp s = C_idle.
Proof.
  intros Hn. unfold hLp_init. destruct (Z.ltb_spec 0 n); [|lia].
  unfold store32. rewrite in_buf_true by (cbn; lia).
  eexists; split; [reflexivity|]. repeat split; cbn; try lia; try reflexivity.
Qed.

(** A change of memory outside the live region keeps layout. *)
Lemma lay_frame s s' w f bk :
  lay s w f bk ->
  len s' = len s -> rh s' = rh s -> cw s' = cw s ->
  (forall x, cw s <= x < cw s + 4 -> buf s' x = buf s x) ->
  (match w with
   | None => forall x, rh s <= x < cw s -> buf s' x = buf s x
   | Some e => (forall x, rh s <= x < e + 4 -> buf s' x = buf s x) /\
               (forall x, 0 <= x < cw s -> buf s' x = buf s x)
   end) ->
  lay s' w f bk.
Proof.
  intros (H1 & H2 & H3 & H4 & H5 & H6 & H7 & H8) El Er Ec Hx Hw.
  unfold lay. rewrite El, Er, Ec. repeat (split; [assumption|]).
  split; [rewrite <- H4; apply rd32_ext; exact Hx|].
  repeat (split; [assumption|]).
  destruct w as [e|].
  - destruct H8 as (Ha & Hb & Hc & Hd & He). destruct Hw as (Hw1 & Hw2).
    pose proof (seg_le _ _ _ _ Hb).
    split; [assumption|]. split; [|split; [assumption|split]].
    + eapply seg_ext; [exact Hb|]. intros; apply Hw1; lia.
    + rewrite <- Hd; apply rd32_ext; intros; apply Hw1; lia.
    + eapply seg_ext; [exact He|]. exact Hw2.
  - destruct H8 as (Ha & Hb). split; [assumption|]. eapply seg_ext; [exact Hb|]. exact Hw.
Qed.

(** Consumer invariant only depends on the consumer's own fields. *)
Lemma cinv_frame s s' w f bk :
  cinv s w f bk -> cp s' = cp s -> sent s' = sent s -> recv s' = recv s -> rh s' = rh s ->
  cinv s' w f bk.
Proof. unfold cinv; intros H Ec Es Er Eh; rewrite Ec, Es, Er, Eh; exact H. Qed.

Ltac red_all := cbn [len buf rh wh rem pp cp sent recv refused set_p set_c set_buf set_w set_rh
                      log_sent log_recv log_refused cw] in *.

Lemma send_inv s w f bk r :
  Inv s w f bk -> good r -> exists s', step s (Send r) = Ok s' /\ Inv s' w f bk.
Proof.
  intros (HL & HP & HC) Hg. unfold step. destruct (pp s) eqn:Ep;
    try (exists s; split; [reflexivity|]; split; [exact HL|split; assumption]).
  eexists; split; [reflexivity|]. split; [|split].
  - eapply lay_frame; [exact HL|reflexivity|reflexivity|unfold cw; red_all; rewrite Ep; reflexivity|reflexivity|].
    destruct w; [split|]; reflexivity.
  - unfold pinv in *; rewrite Ep in HP; red_all; auto.
  - eapply cinv_frame; [exact HC|..]; reflexivity.
Qed.

Ltac fin := repeat (split; [reflexivity|]); left; reflexivity.

Lemma pstep_inv s w f bk :
  Inv s w f bk -> exists s' w' f' bk', pstep s = Ok s' /\ Inv s' w' f' bk' /\ recv s' = recv s
    /\ len s' = len s /\ rh s' = rh s /\ cp s' = cp s
    /\ (sent s' = sent s \/ exists r, pp s = P_commit r (cw s) /\ sent s' = sent s ++ [r]).
Proof.
  intros (HL & HP & HC). unfold pstep. unfold pinv in HP. destruct (pp s) eqn:Ep.
  - (* idle *) exists s, w, f, bk. split; [reflexivity|]. split; [|fin].
    split; [exact HL|split; [unfold pinv; rewrite Ep; exact HP|exact HC]].
  - (* enter *) destruct HP as (Hg & Hr).
    eexists _, w, f, bk. split; [reflexivity|]. split; [|fin]. split; [|split].
    + eapply lay_frame; [exact HL|reflexivity|reflexivity|unfold cw; red_all; rewrite Ep; reflexivity|reflexivity|].
      destruct w; [split|]; reflexivity.
    + unfold pinv; red_all. destruct HL as (H1 & H2 & H3 & H4 & H5 & H6 & H7 & H8).
      repeat (split; [assumption|]). unfold cw in H8; rewrite Ep in H8.
      destruct (Z.ltb_spec (wh s) (rh s)) as [Hlt|Hge]; destruct w as [e|].
      * lia.
      * exact I.
      * destruct H8 as (Hx & H8). exfalso; lia.
      * split; [reflexivity|lia].
    + eapply cinv_frame; [exact HC|..]; reflexivity.
  - (* check *) destruct HP as (Hg & Hr & Hm & H0 & Hs).
    assert (Hrefuse : Inv (log_refused (set_p s P_idle) r) w f bk).
    { split; [|split].
      - eapply lay_frame; [exact HL|reflexivity|reflexivity|unfold cw; red_all; rewrite Ep; reflexivity|reflexivity|].
        destruct w; [split|]; reflexivity.
      - unfold pinv; red_all; assumption.
      - eapply cinv_frame; [exact HC|..]; reflexivity. }
    pose proof HL as (H1 & H2 & H3 & H4 & H5 & H6 & H7 & H8).
    unfold cw in H2, H3, H6, H8; rewrite Ep in H2, H3, H6, H8.
    destruct Hg as (Hg1 & Hg2 & Hg3). rewrite u32_id by lia.
    destruct (Z.leb_spec (zlen r + 8) (rem s)) as [Hfit|Hnofit].
    + destruct (Z.ltb_spec (wh s) rhs) as [Hlt|Hge]; cbn [andb].
      * destruct (Z.leb_spec rhs (wh s + 4 + zlen r)) as [Hov|Hok].
        { eexists _, w, f, bk; split; [reflexivity|]; split; [exact Hrefuse|fin]. }
        eexists _, w, f, bk; split; [reflexivity|]; split; [|fin]. split; [|split].
        -- eapply lay_frame; [exact HL|reflexivity|reflexivity|unfold cw; red_all; rewrite Ep; reflexivity|reflexivity|].
           destruct w; [split|]; reflexivity.
        -- unfold pinv; red_all. repeat split; try assumption; try lia.
           ++ intros Hw. destruct w as [e|]; [|congruence]. dmod.
           ++ intros i Hi; lia.
        -- eapply cinv_frame; [exact HC|..]; reflexivity.
      * destruct Hs as (-> & Hs).
        eexists _, None, f, bk; split; [reflexivity|]; split; [|fin]. split; [|split].
        -- eapply lay_frame; [exact HL|reflexivity|reflexivity|unfold cw; red_all; rewrite Ep; reflexivity|reflexivity|].
           reflexivity.
        -- unfold pinv; red_all. repeat split; try assumption; try lia; try congruence.
           intros i Hi; lia.
        -- eapply cinv_frame; [exact HC|..]; reflexivity.
    + destruct (Z.leb_spec (zlen r + 8) (len s)) as [Hfl|Hnfl].
      2:{ eexists _, w, f, bk; split; [reflexivity|]; split; [exact Hrefuse|fin]. }
      destruct (Z.ltb_spec (wh s) rhs) as [Hlt|Hge]; cbn [orb].
      { eexists _, w, f, bk; split; [reflexivity|]; split; [exact Hrefuse|fin]. }
      destruct (Z.ltb_spec rhs (zlen r + 8)) as [Hov|Hok].
      { eexists _, w, f, bk; split; [reflexivity|]; split; [exact Hrefuse|fin]. }
      destruct Hs as (-> & Hs).
      eexists _, None, f, bk; split; [reflexivity|]; split; [|fin]. split; [|split].
      * eapply lay_frame; [exact HL|reflexivity|reflexivity|unfold cw; red_all; rewrite Ep; reflexivity|reflexivity|].
        reflexivity.
      * unfold pinv; red_all. repeat split; try assumption; try lia.
      * eapply cinv_frame; [exact HC|..]; reflexivity.
  - (* wrapstop *) destruct HP as (Hg & -> & Hw0 & Hrem & Hroom).
    pose proof HL as (H1 & H2 & H3 & H4 & H5 & H6 & H7 & (H8 & H9)).
    assert (Hcw : cw s = old) by (unfold cw; rewrite Ep; reflexivity). rewrite Hcw in *.
    pose proof (seg_le _ _ _ _ H9) as [Hle _]. destruct Hg as (Hg1 & Hg2).
    unfold store32. rewrite in_buf_true by lia. cbn [obind].
    eexists _, None, f, bk; split; [reflexivity|]; split; [|fin]. split; [|split].
    + eapply lay_frame; [exact HL|reflexivity|reflexivity|unfold cw; red_all; rewrite Ep; reflexivity|..].
      * rewrite Hcw. intros x Hx; red_all. apply wr32_other; lia.
      * rewrite Hcw. intros x Hx; red_all. apply wr32_other; lia.
    + unfold pinv; red_all. repeat split; try assumption; try lia.
      all: try (apply rd32_wr32_same; unfold HLP_STOP; lia).
    + eapply cinv_frame; [exact HC|..]; reflexivity.
  - (* wraploop *) destruct HP as (Hg & -> & Hw0 & Hrem & Hroom & Hz).
    pose proof HL as (H1 & H2 & H3 & H4 & H5 & H6 & H7 & (H8 & H9)).
    assert (Hcw : cw s = old) by (unfold cw; rewrite Ep; reflexivity). rewrite Hcw in *.
    pose proof (seg_le _ _ _ _ H9) as [Hle _]. pose proof Hg as (Hg1 & Hg2 & Hg3).
    unfold store32. rewrite in_buf_true by lia. cbn [obind].
    eexists _, (Some old), f, []; split; [reflexivity|]; split; [|fin]. split; [|split].
    + unfold lay; unfold cw; red_all. rewrite Hw0. repeat split; try assumption; try lia.
      * rewrite rd32_wr32_other by lia. assumption.
      * eapply seg_ext; [exact H9|]. intros; apply wr32_other; lia.
      * apply rd32_wr32_same; unfold HLP_LOOP; lia.
    + unfold pinv; red_all. repeat split; try assumption; try lia.
      intros i Hi; lia.
    + subst bk. unfold cinv in *; red_all. destruct (cp s); try exact HC.
      destruct HC as (_ & _ & Hbad); congruence.
  - (* fill *) destruct HP as (Hg & Hr & Hl & Hw & Hi & Hb).
    pose proof HL as (H1 & H2 & H3 & H4 & H5 & H6 & H7 & H8).
    assert (Hcw : cw s = wh s) by (unfold cw; rewrite Ep; reflexivity).
    destruct (nth_error r i) as [b|] eqn:En.
    + assert (Hlt : (i < length r)%nat) by (apply nth_error_Some; congruence).
      assert (Hzl : Z.of_nat i < zlen r) by (unfold zlen; lia).
      unfold store8. rewrite in_buf_true by lia. cbn [obind].
      eexists _, w, f, bk; split; [reflexivity|]; split; [|fin]. split; [|split].
      * eapply lay_frame; [exact HL|reflexivity|reflexivity|unfold cw; red_all; rewrite Ep; reflexivity|..].
        -- rewrite Hcw. intros x Hx; red_all. apply upd_other; lia.
        -- rewrite Hcw in *. destruct w as [e|]; [split|]; intros x Hx; red_all; apply upd_other; try lia.
           assert (wh s + 8 + zlen r <= rh s) by (apply Hw; congruence). lia.
      * unfold pinv; red_all. repeat split; try assumption; try lia; try (destruct Hg as (?&?&?); assumption).
        intros j Hj. destruct (Nat.eq_dec j i) as [->|Hne].
        -- rewrite upd_same. symmetry. apply nth_error_nth; assumption.
        -- rewrite upd_other by lia. apply Hb; lia.
      * eapply cinv_frame; [exact HC|..]; reflexivity.
    + apply nth_error_None in En. assert (i = length r) by lia; subst i.
      eexists _, w, f, bk; split; [reflexivity|]; split; [|fin]. split; [|split].
      * eapply lay_frame; [exact HL|reflexivity|reflexivity|unfold cw; red_all; rewrite Ep; reflexivity|reflexivity|].
        destruct w; [split|]; reflexivity.
      * unfold pinv; red_all. auto 10.
      * eapply cinv_frame; [exact HC|..]; reflexivity.
  - (* prod *) destruct HP as (Hg & Hr & Hl & Hw & Hb).
    pose proof HL as (H1 & H2 & H3 & H4 & H5 & H6 & H7 & H8).
    assert (Hcw : cw s = wh s) by (unfold cw; rewrite Ep; reflexivity).
    pose proof Hg as (Hg1 & Hg2 & Hg3). rewrite (u32_id (zlen r + 8)) by lia.
    destruct (Z.leb_spec (zlen r + 8) (rem s)); [|lia].
    unfold store32. rewrite in_buf_true by (red_all; lia). cbn [obind].
    eexists _, w, f, bk; split; [reflexivity|]; split; [|fin]. split; [|split].
    + eapply lay_frame; [exact HL|reflexivity|reflexivity|unfold cw; red_all; rewrite Ep; reflexivity|..].
      * rewrite Hcw. intros x Hx; red_all. apply wr32_other; lia.
      * rewrite Hcw in *. destruct w as [e|]; [split|]; intros x Hx; red_all; apply wr32_other; try lia.
        assert (wh s + 8 + zlen r <= rh s) by (apply Hw; congruence). lia.
    + unfold pinv; red_all. rewrite u32_id by lia. repeat split; try assumption; try lia.
      * apply rd32_wr32_same; unfold HLP_STOP; lia.
      * intros j Hj. rewrite wr32_other by (unfold zlen; lia). apply Hb; exact Hj.
    + eapply cinv_frame; [exact HC|..]; reflexivity.
  - (* commit *) destruct HP as (Hg & Hwh & Hr & Hl & Hw & Hz & Hb).
    pose proof HL as (H1 & H2 & H3 & H4 & H5 & H6 & H7 & H8).
    assert (Hcw : cw s = old) by (unfold cw; rewrite Ep; reflexivity). rewrite Hcw in *.
    pose proof Hg as (Hg1 & Hg2 & Hg3).
    unfold store32. rewrite in_buf_true by lia. cbn [obind].
    set (s' := log_sent _ _).
    assert (Hcommon : 0 <= rh s' /\ 0 <= cw s' /\ cw s' + 4 <= len s' /\ rd32 (buf s') (cw s') = 0 /\
       rh s' mod 4 = 0 /\ cw s' mod 4 = 0 /\ len s' < 4294967296).
    { unfold s'; unfold cw; red_all. repeat (split; [first [assumption|lia]|]).
      split; [rewrite rd32_wr32_other by lia; assumption|].
      split; [assumption|]. split; [rewrite Hwh; dmod|assumption]. }
    destruct Hcommon as (C1 & C2 & C3 & C4 & C5 & C6 & C7).
    assert (Hb' : bytes_at (buf s') (old + 4) r (length r)).
    { intros j Hj. unfold s'; red_all. rewrite wr32_other by lia. apply Hb; exact Hj. }
    assert (Hr' : rd32 (buf s') old = zlen r).
    { unfold s'; red_all. apply rd32_wr32_same; lia. }
    assert (Hp' : forall w', pinv s' w').
    { intros w'. unfold pinv, s'; red_all. assumption. }
    destruct w as [e|].
    + destruct H8 as (Ha & Hs1 & He & Hloop & Hs2).
      pose proof (seg_le _ _ _ _ Hs1) as [Hle _].
      assert (Hw' : wh s + 4 <= rh s) by (apply Hw; congruence).
      exists s', (Some e), f, (bk ++ [r]). split; [reflexivity|].
      split; [|unfold s'; red_all; repeat split; auto; right; exists r; split; reflexivity].
      split; [|split; [apply Hp'|]].
      * unfold lay. do 7 (split; [assumption|]).
        split; [unfold cw, s'; red_all; assumption|].
        split; [eapply seg_ext; [exact Hs1|]; intros x Hx; unfold s' in *; red_all; apply wr32_other; lia|].
        split; [unfold s'; red_all; assumption|].
        split; [rewrite <- Hloop; unfold s'; red_all; apply rd32_wr32_other; lia|].
        replace (cw s') with (old + 4 + zlen r) by (unfold cw, s'; red_all; lia).
        apply seg_snoc; try assumption.
        eapply seg_ext; [exact Hs2|]. intros x Hx; unfold s' in *; red_all; apply wr32_other; lia.
      * unfold cinv in *; unfold s'; red_all.
        destruct (cp s).
        -- rewrite HC, ?app_assoc; reflexivity.
        -- destruct HC as (HC & HC'); split; [rewrite HC, ?app_assoc; reflexivity|exact HC'].
        -- destruct HC as (HC & HC'); split; [rewrite HC, ?app_assoc; reflexivity|exact HC'].
        -- destruct HC as (HC & HC'); split; [rewrite HC, ?app_assoc; reflexivity|exact HC'].
        -- destruct HC as (HC & HC'); split; [rewrite HC, ?app_assoc; reflexivity|exact HC'].
        -- destruct HC as (r0 & t & q & E1 & E2 & E3); exists r0, t, q; rewrite E3, ?app_assoc; auto.
        -- destruct HC as (r0 & t & q & E1 & E2 & E3); exists r0, t, q; rewrite E3, ?app_assoc; auto.
    + destruct H8 as (-> & Hs1). pose proof (seg_le _ _ _ _ Hs1) as [Hle _].
      exists s', None, (f ++ [r]), []. split; [reflexivity|].
      split; [|unfold s'; red_all; repeat split; auto; right; exists r; split; reflexivity].
      split; [|split; [apply Hp'|]].
      * unfold lay. repeat (split; [assumption|]). split; [reflexivity|].
        replace (cw s') with (old + 4 + zlen r) by (unfold cw, s'; red_all; lia).
        apply seg_snoc; try assumption.
        eapply seg_ext; [exact Hs1|]. intros x Hx; unfold s' in *; red_all; apply wr32_other; lia.
      * unfold cinv in *; unfold s'; red_all. rewrite !app_nil_r in *.
        destruct (cp s).
        -- rewrite HC, ?app_assoc; reflexivity.
        -- destruct HC as (_ & _ & Hbad); congruence.
        -- destruct HC as (HC & HC'); split; [|exact HC']. rewrite HC, ?app_assoc; reflexivity.
        -- destruct HC as (HC & HC'); split; [|destruct f; cbn; congruence].
           rewrite HC, ?app_assoc; reflexivity.
        -- destruct HC as (HC & r0 & t & E & Hrest). split; [rewrite HC, ?app_assoc; reflexivity|].
           subst f. exists r0, (t ++ [r]). split; [reflexivity|exact Hrest].
        -- destruct HC as (r0 & t & q & E1 & E2 & E3). subst f.
           exists r0, (t ++ [r]), q. rewrite E3, <- app_assoc; auto.
        -- destruct HC as (r0 & t & q & E1 & E2 & E3). subst f.
           exists r0, (t ++ [r]), q. rewrite E3, <- app_assoc; auto.
Qed.

(** ** Consumer *)
Definition wsum (l : list (list Z)) : Z := fold_right (fun r a => zlen r + 20 + a) 0 l.
Lemma wsum_nonneg l : 0 <= wsum l.
Proof. induction l as [|r l IH]; cbn [wsum fold_right]; [lia|]. pose proof (zlen_nonneg r). unfold wsum in IH. lia. Qed.

Definition cmeasure (s : pipe) (w : option Z) (f bk : list (list Z)) : Z :=
  wsum f + wsum bk + (match w with None => 0 | Some _ => 10 end) +
  match cp s with
  | C_idle => 5 | C_loop => 4 | C_again => 6 | C_have => 4
  | C_read _ acc => 3 - zlen acc
  | C_cons1 => 2 - zlen (hd [] f)
  | C_cons2 => 1 - zlen (hd [] f)
  end.

Lemma cmeasure_nonneg s w f bk : cinv s w f bk -> 0 <= cmeasure s w f bk.
Proof.
  unfold cmeasure, cinv. pose proof (wsum_nonneg f). pose proof (wsum_nonneg bk).
  destruct (cp s); try (destruct w; lia).
  - intros (_ & r & t & -> & -> & _ & Hl). cbn [wsum fold_right] in *.
    pose proof (wsum_nonneg t) as Ht. unfold wsum in Ht. unfold zlen in *. destruct w; lia.
  - intros (r & t & q & -> & _). cbn [wsum fold_right hd] in *.
    pose proof (wsum_nonneg t) as Ht. unfold wsum in Ht. pose proof (zlen_nonneg r). destruct w; lia.
  - intros (r & t & q & -> & _). cbn [wsum fold_right hd] in *.
    pose proof (wsum_nonneg t) as Ht. unfold wsum in Ht. pose proof (zlen_nonneg r). destruct w; lia.
Qed.

(** The producer's invariant survives the consumer moving the read head forward. *)
Lemma firstn_snoc {A} (d : A) r : forall k, (k < length r)%nat ->
  firstn k r ++ [nth k r d] = firstn (S k) r.
Proof.
  induction r as [|x r IH]; intros k Hk; cbn [length] in Hk; [lia|].
  destruct k as [|k]; [reflexivity|]. cbn [firstn nth app]. rewrite IH by lia. reflexivity.
Qed.

Lemma front_facts s w r t bk : lay s w (r :: t) bk ->
  good r /\ rd32 (buf s) (rh s) = zlen r /\ bytes_at (buf s) (rh s + 4) r (length r) /\
  rh s + 8 + zlen r <= len s.
Proof.
  intros (H1 & H2 & H3 & H4 & H5 & H6 & H7 & H8).
  assert (exists e, seg (buf s) (rh s) (r :: t) e /\ e + 4 <= len s) as (e & Hs & He).
  { destruct w; [destruct H8 as (_ & ? & ? & _)|destruct H8 as (_ & ?)]; eauto. }
  cbn [seg] in Hs. destruct Hs as (Hg & Hr & Hb & Hs). apply seg_le in Hs.
  repeat (split; [assumption|]). lia.
Qed.

Lemma cstep_inv s w f bk :
  Inv s w f bk -> exists s' w' f' bk', cstep s = Ok s' /\ Inv s' w' f' bk' /\ sent s' = sent s
    /\ refused s' = refused s /\ len s' = len s /\ pp s' = pp s
    /\ prefix (recv s) (recv s')
    /\ (cmeasure s' w' f' bk' < cmeasure s w f bk \/
        (s' = s /\ cp s = C_idle /\ w = None /\ f = [] /\ bk = [])).
Proof.
  intros (HL & HP & HC).
  pose proof HL as (H1 & H2 & H3 & H4 & H5 & H6 & H7 & H8).
  assert (Hself : prefix (recv s) (recv s)) by (exists []; rewrite app_nil_r; reflexivity).
  (* changing only the consumer's pc keeps lay and pinv *)
  assert (HLP : forall c, lay (set_c s c) w f bk /\ pinv (set_c s c) w) by (intros; split; assumption).
  assert (Hrhle : rh s + 4 <= len s).
  { destruct w as [e|].
    - destruct H8 as (_ & Hs & He & _). apply seg_le in Hs. lia.
    - destruct H8 as (_ & Hs). apply seg_le in Hs. lia. }
  unfold cstep. unfold cinv in HC. destruct (cp s) eqn:Ec.
  - (* idle *)
    unfold load32. rewrite in_buf_true by lia. cbn [obind].
    destruct f as [|r t].
    + destruct w as [e|].
      * destruct H8 as (Ha & Hs & He & Hloop & Hs2). cbn [seg] in Hs. subst e.
        rewrite Hloop, Z.eqb_refl.
        eexists _, (Some (rh s)), [], bk; split; [reflexivity|]. split; [split; [apply HLP|split; [apply HLP|]]|].
        -- unfold cinv; red_all. auto.
        -- red_all. repeat (split; [try reflexivity; assumption|]). left. unfold cmeasure; red_all. rewrite Ec. lia.
      * destruct H8 as (-> & Hs). cbn [seg] in Hs. rewrite Hs, H4.
        replace (0 =? HLP_LOOP) with false by reflexivity. rewrite Z.eqb_refl.
        exists s, None, [], []. split; [reflexivity|].
        split; [split; [assumption|split; [assumption|unfold cinv; rewrite Ec; assumption]]|].
        repeat (split; [try reflexivity; assumption|]). right; auto.
    + destruct (front_facts _ _ _ _ _ HL) as ((Hg1 & Hg2 & Hg3) & Hr & Hb & Hlen).
      rewrite Hr. destruct (Z.eqb_spec (zlen r) HLP_LOOP) as [E|_]; [unfold HLP_LOOP in E; lia|].
      destruct (Z.eqb_spec (zlen r) 0); [lia|].
      eexists _, w, (r :: t), bk; split; [reflexivity|]. split; [split; [apply HLP|split; [apply HLP|]]|].
      * unfold cinv; red_all. split; [assumption|congruence].
      * red_all. repeat (split; [try reflexivity; assumption|]). left. unfold cmeasure; red_all. rewrite Ec. lia.
  - (* loop *)
    destruct HC as (HC & -> & ->).
    destruct H8 as (Ha & Hs & He & Hloop & Hs2).
    eexists _, None, bk, []; split; [reflexivity|]. split; [split; [|split]|].
    + unfold lay; unfold cw in *; red_all. repeat split; try assumption; try lia.
    + unfold pinv in *; red_all. destruct (pp s) eqn:Ep.
      * exact HP.
      * exact HP.
      * destruct HP as (Hg & Hr & Hm & Hp0 & Hsn). repeat (split; [assumption|]).
        destruct (wh s <? rhs); [exact I|]. destruct Hsn as (Hbad & _); congruence.
      * destruct HP as (_ & Hbad & _); congruence.
      * destruct HP as (_ & Hbad & _); congruence.
      * destruct HP as (Hg & Hr & Hl & Hw & Hi & Hb). repeat (split; [assumption|]). split; [congruence|auto].
      * destruct HP as (Hg & Hr & Hl & Hw & Hb). repeat (split; [assumption|]). split; [congruence|auto].
      * destruct HP as (Hg & Hwh & Hr & Hl & Hw & Hb). repeat (split; [assumption|]). split; [congruence|auto].
    + unfold cinv; red_all. cbn [app] in HC. rewrite app_nil_r. auto.
    + red_all. repeat (split; [try reflexivity; assumption|]). left. unfold cmeasure; red_all. rewrite Ec.
      cbn [wsum fold_right]. lia.
  - (* again *)
    destruct HC as (HC & H0).
    unfold load32. rewrite in_buf_true by lia. cbn [obind].
    destruct w as [e|]; [destruct H8 as (Ha & _); exfalso; lia|].
    destruct H8 as (-> & Hs).
    destruct f as [|r t].
    + cbn [seg] in Hs. rewrite Hs, H4, Z.eqb_refl.
      eexists _, None, [], []; split; [reflexivity|]. split; [split; [apply HLP|split; [apply HLP|]]|].
      * unfold cinv; red_all. assumption.
      * red_all. repeat (split; [try reflexivity; assumption|]). left. unfold cmeasure; red_all. rewrite Ec. lia.
    + destruct (front_facts _ _ _ _ _ HL) as ((Hg1 & Hg2 & Hg3) & Hr & Hb & Hlen).
      rewrite Hr. destruct (Z.eqb_spec (zlen r) 0); [lia|].
      eexists _, None, (r :: t), []; split; [reflexivity|]. split; [split; [apply HLP|split; [apply HLP|]]|].
      * unfold cinv; red_all. split; [assumption|congruence].
      * red_all. repeat (split; [try reflexivity; assumption|]). left. unfold cmeasure; red_all. rewrite Ec. lia.
  - (* have *)
    destruct HC as (HC & Hne). destruct f as [|r t]; [congruence|].
    destruct (front_facts _ _ _ _ _ HL) as ((Hg1 & Hg2 & Hg3) & Hr & Hb & Hlen).
    unfold load32. rewrite in_buf_true by lia. cbn [obind]. rewrite Hr.
    eexists _, w, (r :: t), bk; split; [reflexivity|]. split; [split; [apply HLP|split; [apply HLP|]]|].
    + unfold cinv; red_all. split; [assumption|]. exists r, t. cbn [length firstn]. repeat split; lia.
    + red_all. repeat (split; [try reflexivity; assumption|]). left. unfold cmeasure; red_all. rewrite Ec.
      change (@zlen Z []) with 0. lia.
  - (* read *)
    destruct HC as (HC & r & t & -> & -> & Hacc & Hle).
    destruct (front_facts _ _ _ _ _ HL) as (Hg & Hr & Hb & Hlen).
    destruct (Z.ltb_spec (zlen acc) (zlen r)) as [Hlt|Hge].
    + unfold load8. pose proof (zlen_nonneg acc). rewrite in_buf_true by lia. cbn [obind].
      assert (Hk : (length acc < length r)%nat) by (unfold zlen in Hlt; lia).
      eexists _, w, (r :: t), bk; split; [reflexivity|]. split; [split; [apply HLP|split; [apply HLP|]]|].
      * unfold cinv; red_all. split; [assumption|]. exists r, t. repeat (split; [reflexivity|]).
        rewrite app_length; cbn [length]. split; [|lia].
        replace (length acc + 1)%nat with (S (length acc)) by lia.
        rewrite <- (firstn_snoc 0) by exact Hk. rewrite <- Hacc. f_equal. f_equal.
        unfold zlen. apply Hb; exact Hk.
      * red_all. repeat (split; [try reflexivity; assumption|]). left. unfold cmeasure; red_all. rewrite Ec.
        rewrite zlen_app, zlen_cons. change (@zlen Z []) with 0. lia.
    + assert (Hfull : acc = r).
      { rewrite Hacc. unfold zlen in Hge. rewrite firstn_all2 by lia. reflexivity. }
      subst acc.
      eexists _, w, (r :: t), bk; split; [reflexivity|]. split; [split; [apply HLP|split; [apply HLP|]]|].
      * unfold cinv; red_all. exists r, t, (recv s). auto.
      * red_all. do 4 (split; [reflexivity|]). split; [exists [r]; reflexivity|].
        left. unfold cmeasure; red_all. rewrite Ec. cbn [hd]. lia.
  - (* cons1 *)
    destruct HC as (r & t & q & -> & Hrecv & Hsent).
    destruct (front_facts _ _ _ _ _ HL) as ((Hg1 & Hg2 & Hg3) & Hr & Hb & Hlen).
    unfold load32. rewrite in_buf_true by lia. cbn [obind]. rewrite Hr.
    destruct (Z.eqb_spec (zlen r) HLP_STOP) as [E|_]; [unfold HLP_STOP in E; lia|]. cbn [negb].
    eexists _, w, (r :: t), bk; split; [reflexivity|]. split; [split; [apply HLP|split; [apply HLP|]]|].
    + unfold cinv; red_all. exists r, t, q; auto.
    + red_all. repeat (split; [try reflexivity; assumption|]). left. unfold cmeasure; red_all. rewrite Ec.
      cbn [hd]. lia.
  - (* cons2 *)
    destruct HC as (r & t & q & -> & Hrecv & Hsent).
    destruct (front_facts _ _ _ _ _ HL) as ((Hg1 & Hg2 & Hg3) & Hr & Hb & Hlen).
    unfold load32. rewrite in_buf_true by lia. cbn [obind]. rewrite Hr.
    eexists _, w, t, bk; split; [reflexivity|]. split; [split; [|split]|].
    + unfold lay; unfold cw in *; red_all. split; [lia|]. do 3 (split; [assumption|]).
      split; [dmod|]. do 2 (split; [assumption|]).
      destruct w as [e|].
      * destruct H8 as (Ha & Hs & He & Hloop & Hs2). cbn [seg] in Hs. destruct Hs as (_ & _ & _ & Hs).
        split; [lia|]. split; [|auto].
        replace (rh s + (4 + zlen r)) with (rh s + 4 + zlen r) by lia. assumption.
      * destruct H8 as (Hbk & Hs). cbn [seg] in Hs. destruct Hs as (_ & _ & _ & Hs).
        split; [assumption|]. replace (rh s + (4 + zlen r)) with (rh s + 4 + zlen r) by lia. assumption.
    + unfold pinv in *; red_all. destruct (pp s) eqn:Ep.
      * exact HP.
      * exact HP.
      * destruct HP as (Hg & Hrem & Hm & Hp0 & Hsn). repeat (split; [assumption|]).
        destruct (wh s <? rhs); [destruct w; [lia|exact I]|].
        destruct Hsn as (Hbad & Hsn). split; [assumption|lia].
      * destruct HP as (Hg & Hw & Hwh & Hrem & Hroom). repeat (split; [assumption|]). lia.
      * destruct HP as (Hg & Hw & Hwh & Hrem & Hroom & Hz). repeat (split; [assumption|]). split; [lia|assumption].
      * destruct HP as (Hg & Hrem & Hl & Hw & Hi & Hbb). repeat (split; [assumption|]).
        split; [intros Hn; specialize (Hw Hn); lia|auto].
      * destruct HP as (Hg & Hrem & Hl & Hw & Hbb). repeat (split; [assumption|]).
        split; [intros Hn; specialize (Hw Hn); lia|auto].
      * destruct HP as (Hg & Hwh & Hrem & Hl & Hw & Hz & Hbb). repeat (split; [assumption|]).
        split; [intros Hn; specialize (Hw Hn); lia|auto].
    + unfold cinv; red_all. rewrite Hsent, Hrecv, <- app_assoc. reflexivity.
    + red_all. repeat (split; [try reflexivity; assumption|]). left. unfold cmeasure; red_all. rewrite Ec.
      cbn [hd wsum fold_right]. fold (wsum t). lia.
Qed.

(** ** Whole executions *)
Definition good_label (l : label) : Prop := match l with Send r => good r | _ => True end.

Lemma step_inv s w f bk l : Inv s w f bk -> good_label l ->
  exists s' w' f' bk', step s l = Ok s' /\ Inv s' w' f' bk'.
Proof.
  intros HI Hg. destruct l as [r| |]; cbn [step].
  - destruct (send_inv _ _ _ _ r HI Hg) as (s' & E & HI'). exists s', w, f, bk; auto.
  - destruct (pstep_inv _ _ _ _ HI) as (s' & w' & f' & bk' & E & HI' & _). exists s', w', f', bk'; auto.
  - destruct (cstep_inv _ _ _ _ HI) as (s' & w' & f' & bk' & E & HI' & _). exists s', w', f', bk'; auto.
Qed.

Lemma run_inv ls : forall s w f bk, Inv s w f bk -> Forall good_label ls ->
  exists s' w' f' bk', run s ls = Ok s' /\ Inv s' w' f' bk'.
Proof.
  induction ls as [|l ls IH]; intros s w f bk HI Hg; cbn [run].
  - exists s, w, f, bk; auto.
  - inversion Hg as [|? ? Hl Hls]; subst.
    destruct (step_inv _ _ _ _ _ HI Hl) as (s1 & w1 & f1 & bk1 & E & HI1). rewrite E; cbn [obind].
    eapply IH; eassumption.
Qed.

Lemma inv_prefix s w f bk : Inv s w f bk -> prefix (recv s) (sent s).
Proof.
  intros (_ & _ & HC). unfold cinv in HC. unfold prefix.
  destruct (cp s).
  - eexists; exact HC.
  - destruct HC as (HC & _); eexists; exact HC.
  - destruct HC as (HC & _); eexists; exact HC.
  - destruct HC as (HC & _); eexists; exact HC.
  - destruct HC as (HC & _); eexists; exact HC.
  - destruct HC as (r & t & q & -> & Hr & Hs). exists (t ++ bk). rewrite Hs, Hr, <- app_assoc. reflexivity.
  - destruct HC as (r & t & q & -> & Hr & Hs). exists (t ++ bk). rewrite Hs, Hr, <- app_assoc. reflexivity.
Qed.

Lemma run_app ls1 : forall s ls2, run s (ls1 ++ ls2) = let! s1 := run s ls1 in run s1 ls2.
Proof.
  induction ls1 as [|l ls1 IH]; intros; cbn [app run obind]; [reflexivity|].
  destruct (step s l); cbn [obind]; auto.
Qed.

Lemma drain_aux k : forall s w f bk, Inv s w f bk -> cmeasure s w f bk < Z.of_nat k ->
  exists j s', run s (repeat Cons j) = Ok s' /\ Inv s' None [] [] /\ cp s' = C_idle /\
     sent s' = sent s /\ pp s' = pp s /\ len s' = len s /\ recv s' = sent s'.
Proof.
  induction k as [|k IH]; intros s w f bk HI Hm.
  - destruct HI as (_ & _ & HC). apply cmeasure_nonneg in HC. lia.
  - destruct (cstep_inv _ _ _ _ HI) as (s1 & w1 & f1 & bk1 & E & HI1 & Hs & _ & Hl & Hp & _ & [Hlt|Hq]).
    + destruct (IH s1 w1 f1 bk1 HI1) as (j & s' & E' & HI' & Hc & Hs' & Hp' & Hl' & Hr'); [lia|].
      exists (S j), s'. cbn [repeat run]. cbn [step]. rewrite E; cbn [obind].
      repeat (split; [first [assumption|congruence]|]). assumption.
    + destruct Hq as (-> & Hc & -> & -> & ->). exists 0%nat, s. cbn [repeat run].
      split; [reflexivity|]. split; [assumption|]. split; [assumption|].
      do 3 (split; [reflexivity|]).
      destruct HI as (_ & _ & HC). unfold cinv in HC. rewrite Hc in HC. cbn [app] in HC.
      rewrite app_nil_r in HC. congruence.
Qed.

Lemma drain s w f bk : Inv s w f bk ->
  exists j s', run s (repeat Cons j) = Ok s' /\ Inv s' None [] [] /\ cp s' = C_idle /\
     sent s' = sent s /\ pp s' = pp s /\ len s' = len s /\ recv s' = sent s'.
Proof.
  intros HI. apply (drain_aux (S (Z.to_nat (cmeasure s w f bk))) s w f bk HI).
  destruct HI as (_ & _ & HC). apply cmeasure_nonneg in HC. lia.
Qed.
