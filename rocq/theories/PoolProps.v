(** Property theorems C07, C08 about the message pool (HvMessagePool.c).

    [pool_run (p, live) ops] performs a client history of [Add]/[Free] operations, starting from
    pool [p] with live messages [live] (address, byte image).  [held] (PoolSpec.v) is the list of
    images the client holds, computed from the history alone. *)
From Verif Require Import PoolModel PoolSpec PoolProofs PoolProofs2.

(** C07: for every pool size, every history of additions and frees, and even if the source headers
    claim wrong sizes: no access outside the pool; live messages lie inside the pool, do not
    overlap, and every byte of every live message is still what was stored. *)
Theorem pool_messages_disjoint_intact :
  forall junk kb ops, 0 < kb -> Forall wf_op ops ->
  match pool_run (mp_init junk kb, []) ops with
  | Ok (p, live) =>
      (forall i a img, nth_error live i = Some (a, img) ->
         0 <= a /\ a + zlen img <= kb * 1024 /\
         forall k, (k < length img)%nat -> bytes p (a + Z.of_nat k) = nth k img 0) /\
      (forall i j a img a' img', i <> j ->
         nth_error live i = Some (a, img) -> nth_error live j = Some (a', img') ->
         a + zlen img <= a' \/ a' + zlen img' <= a)
  | AssertFail => True
  | UB => False
  end.
Proof.
  intros junk kb ops Hkb Hops.
  pose proof (run_pinv ops (mp_init junk kb) [] (init_pinv junk kb Hkb) Hops) as H.
  change (map fst []) with (@nil (Z * list Z)) in H.
  destruct (pool_run (mp_init junk kb, []) ops) as [[p live]| |]; [|exact I|exact H].
  destruct H as (gl & -> & HI & Hb). split.
  - intros i a img Hi. change (kb * 1024) with (bsize (mp_init junk kb)). rewrite <- Hb.
    exact (pinv_one p gl i a img HI Hi).
  - intros i j a img a' img' Hne Hi Hj. exact (pinv_live p gl i j a img a' img' HI Hi Hj Hne).
Qed.
Print Assumptions pool_messages_disjoint_intact.

(** C08, positive half: if claimed sizes fall in the right class and the client never holds more
    than [L i] messages of class [i], a pool with enough 512-byte blocks never runs out, for any
    length of history, and the client holds exactly what it should. *)
Theorem pool_never_exhausted :
  forall junk kb (L : Z -> Z) ops, 0 < kb -> Forall accurate_op ops ->
  (forall pre post i, ops = pre ++ post -> 0 <= i < 4 -> count_class i (held [] pre) <= L i) ->
  512 * (blocks_for 0 (L 0) + blocks_for 1 (L 1) + blocks_for 2 (L 2) + blocks_for 3 (L 3)) <= kb * 1024 ->
  exists p live, pool_run (mp_init junk kb, []) ops = Ok (p, live) /\ map snd live = held [] ops.
Proof.
  intros junk kb L ops Hkb Hacc Hcnt Hbs.
  assert (HL : forall i, 0 <= i < 4 -> 0 <= L i).
  { intros i Hi. specialize (Hcnt [] ops i eq_refl Hi). cbn [held] in Hcnt. exact Hcnt. }
  exact (run_room ops (mp_init junk kb) [] (fun _ => 0) L (init_einv junk kb L Hkb HL) Hacc Hcnt Hbs).
Qed.
Print Assumptions pool_never_exhausted.

(** The hypotheses are satisfiable: 3 small and 2 large messages at once in a 1 KB pool. *)
Definition sample (n v : Z) : list Z := repeat v 6 ++ [n; 0] ++ repeat v (Z.to_nat n - 8).
Example pool_example :
  let ops := [Add 24 (sample 24 1); Add 30 (sample 30 2); Add 40 (sample 40 3); Free 1; Add 32 (sample 32 4);
              Free 0; Add 64 (sample 64 5)] in
  Forall accurate_op ops /\
  (match pool_run (mp_init (fun _ => 0) 1, []) ops with Ok (_, live) => map (fun x => (fst x, zlen (snd x))) live | _ => [] end)
    = [(896, 64); (960, 40); (480, 24)].
Proof.
  cbn zeta. split; [|vm_compute; reflexivity].
  repeat constructor; vm_compute; (reflexivity || discriminate).
Qed.

(** C08 is false without the accuracy assumption: one message at a time, with the sizes that the
    cast-to-symbol object produces (HvControlCast.c:46: header claims 24+5+6 = 35 bytes, the
    stored copy has 30), exhausts the default 10 KB pool. *)
Theorem pool_never_exhausted_refuted :
  exists ops,
    Forall wf_op ops /\
    (forall pre post, ops = pre ++ post -> (length (held [] pre) <= 1)%nat) /\
    Forall (fun o => match o with Add s img => s = 35 /\ zlen img = 30 | Free k => k = 0%nat end) ops /\
    pool_run (mp_init (fun _ => 0) 10, []) ops = AssertFail.
Proof.
  exists (concat (repeat [Add 35 (sample 30 7); Free 0] 161)).
  assert (Hall : forall o, In o (concat (repeat [Add 35 (sample 30 7); Free 0] 161)) ->
                 o = Add 35 (sample 30 7) \/ o = Free 0).
  { intros o Ho. apply in_concat in Ho. destruct Ho as (l & Hl & Ho).
    apply repeat_spec in Hl. subst l. destruct Ho as [<-|[<-|[]]]; auto. }
  split; [|split; [|split]].
  - apply Forall_forall. intros o Ho. destruct (Hall o Ho) as [->| ->]; [|exact I].
    split; [lia|]. split; [vm_compute; split; discriminate|vm_compute; reflexivity].
  - clear Hall. generalize 161%nat. intros n pre post E.
    assert (G : forall n pre post,
      concat (repeat [Add 35 (sample 30 7); Free 0] n) = pre ++ post ->
      (length (held [] pre) <= 1)%nat).
    { clear. induction n as [|n IH]; intros pre post E.
      - cbn [repeat concat] in E. destruct pre; [cbn; lia|discriminate].
      - cbn [repeat concat app] in E. destruct pre as [|o pre]; [cbn; lia|].
        injection E as <- E. destruct pre as [|o pre]; [cbn [held length]; lia|].
        injection E as <- E. cbn [held firstn skipn app]. exact (IH pre post E). }
    exact (G n pre post E).
  - apply Forall_forall. intros o Ho. destruct (Hall o Ho) as [->| ->]; [|reflexivity].
    split; reflexivity.
  - vm_compute. reflexivity.
Qed.
Print Assumptions pool_never_exhausted_refuted.
