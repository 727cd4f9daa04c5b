(** trigger, pack, unpack, route and select of any size: theorems. *)
From Verif Require Import PatchProofs PatchProofs2 PatchProofs12 FanSpec FanProofs FanProofs2 FanProofs3.
From Coq Require Import Lia.
Open Scope Z_scope.

Theorem trigger_right_to_left E cs l : sends E (trigger_pd cs) (map msg_event l) (trigger_spec cs l).
Proof. apply trigger_sends. Qed.
Print Assumptions trigger_right_to_left.
(** Pd sends 0 for bang at "t f". *)
Theorem trigger_number_refuted E t : sends E (trigger_pd [CF]) [In_ t 0 [EB]] [].
Proof. apply (trigger_sends E [CF] [(t, [EB])]). Qed.
Print Assumptions trigger_number_refuted.

Theorem unpack_distributes E n l : sends E (unpack_pd n) (map msg_event l) (unpack_spec n l).
Proof. apply unpack_sends. Qed.
Print Assumptions unpack_distributes.

Theorem pack_collects E vals l : vals <> [] -> pack_ok (List.length vals) l -> sends E (pack_pd vals) (map pack_event l) (pack_spec vals l).
Proof. apply pack_sends. Qed.
Print Assumptions pack_collects.

Theorem route_takes_the_first E cs l : Forall plain_label cs -> Forall (fun e => route_ok E cs (snd e)) l ->
  sends E (route_pd cs) (map msg_event l) (map (route_one cs) l).
Proof. apply route_sends. Qed.
Print Assumptions route_takes_the_first.
Theorem select_takes_the_first E cs l : Forall plain_label cs -> Forall (fun e => route_ok E cs (snd e)) l ->
  sends E (sel_pd cs) (map msg_event l) (map (select_one cs) l).
Proof. apply select_sends. Qed.
Print Assumptions select_takes_the_first.
(** -0 does not fit 0, a number can be taken for a word, the word "symbol" alone is read beyond its end. *)
Theorem route_refuted E t :
  (sends E (route_pd [LN fzero]) [In_ t 0 [EF (B754_zero true)]] [(t, 1%nat, [EF (B754_zero true)])] /\
   matches (LN fzero) (EF (B754_zero true)) = true) /\
  (exists x, is_finite x = true /\ sends E (route_pd [LS (T "set")]) [In_ t 0 [EF x]] [(t, O, [EB])]) /\
  (forall cs, fails E (route_pd cs) [In_ t 0 [word "symbol"]] UB).
Proof.
  split; [| split].
  - split; [| reflexivity]. apply (one_case E t [LN fzero] [EF (B754_zero true)] 1); [reflexivity | cbn; lia | discriminate].
  - exists set_number. split; [reflexivity |]. apply (one_case E t [LS (T "set")] [EF set_number] 0); [| cbn; lia | discriminate].
    unfold switch_outlet. cbn [elem_hash]. rewrite set_bits. reflexivity.
  - intros cs. apply route_symbol.
Qed.
Print Assumptions route_refuted.

Example trigger_example E x : sends E (trigger_pd [CB; CF; CA]) (map msg_event [(5, [EF x; EB])])
  [(5, 2%nat, [EF x; EB]); (5, 1%nat, [EF x]); (5, O, [EB])].
Proof. apply (trigger_right_to_left E [CB; CF; CA] [(5, [EF x; EB])]). Qed.
Example unpack_example E x y : sends E (unpack_pd 3) (map msg_event [(5, [EF x; EF y])]) [(5, 1%nat, [EF y]); (5, O, [EF x])].
Proof. apply (unpack_distributes E 3 [(5, [EF x; EF y])]). Qed.
Example pack_example E x y z : sends E (pack_pd [fzero; fzero]) (map pack_event [(0, KNum 0 x); (1, KNums [y]); (2, KBang); (3, KNums [z; z; z])])
  [(1, O, [EF y; EF x]); (2, O, [EF y; EF x]); (3, O, [EF z; EF z])].
Proof. apply (pack_collects E [fzero; fzero] [(0, KNum 0 x); (1, KNums [y]); (2, KBang); (3, KNums [z; z; z])]); [discriminate |]. repeat constructor; cbn; lia. Qed.
Example route_example E : Forall plain_label [LS (T "freq"); LN (of_int 3)] /\ route_ok E [LS (T "freq"); LN (of_int 3)] [word "freq"; whole 440] /\
  route_ok E [LS (T "freq"); LN (of_int 3)] [whole 3].
Proof.
  split; [| split].
  - constructor; [split; [change (T "freq") with [102; 114; 101; 113]; repeat constructor; lia | vm_compute; reflexivity] |]. constructor; [split; [reflexivity | discriminate] | constructor].
  - split; [discriminate |]. split; [discriminate |]. split.
    + split; [split; [cbn; repeat constructor; lia | vm_compute; reflexivity] | discriminate].
    + split; [constructor; [intros H; vm_compute in H; discriminate H |]; constructor; [intros _; vm_compute; discriminate | constructor] |].
      intros e r H _. assert (e = word "freq") as -> by congruence. vm_compute. discriminate.
  - split; [discriminate |]. split; [discriminate |]. split; [split; [reflexivity | discriminate] |].
    split; [constructor; [intros _; vm_compute; discriminate |]; constructor; [intros H; vm_compute in H; discriminate H | constructor] |].
    intros e r H _. assert (e = whole 3) as -> by congruence. vm_compute. discriminate.
Qed.
