(** Facts on running patches: [exec] is deterministic in the fuel; a tactic to run a patch step by step. *)
From Verif Require Import PatchLibs.
From Coq Require Import Lia.
Open Scope Z_scope.

Section Runs.
Variable E : env.

Lemma exec_more fp now f1 f2 w st r :
  (f1 <= f2)%nat -> exec E fp now f1 w st = Some r -> exec E fp now f2 w st = Some r.
Proof.
  revert f2 w st. induction f1 as [| f1 IH]; intros f2 w st Hle H.
  - destruct st; [| discriminate H]. destruct f2; exact H.
  - destruct f2 as [| f2]; [lia |]. destruct st as [| t st]; [exact H |].
    cbn [exec] in *. destruct (step E fp now w t) as [[w1 ts] | |]; [| exact H | exact H].
    apply IH; [lia | exact H].
Qed.
Lemma exec_det fp now f1 f2 w st r1 r2 :
  exec E fp now f1 w st = Some r1 -> exec E fp now f2 w st = Some r2 -> r1 = r2.
Proof.
  intros H1 H2. apply (exec_more _ _ _ (f1 + f2)) in H1; [| lia].
  apply (exec_more _ _ _ (f1 + f2)) in H2; [| lia]. congruence.
Qed.
Lemma runs_det fp now w st w1 w2 : runs E fp now w st w1 -> runs E fp now w st w2 -> w1 = w2.
Proof. intros [f1 H1] [f2 H2]. pose proof (exec_det _ _ _ _ _ _ _ _ H1 H2) as H. now inversion H. Qed.
Lemma plays_det fp l : forall w w1 w2, plays E fp w l w1 -> plays E fp w l w2 -> w1 = w2.
Proof.
  induction l as [| e l IH]; intros w w1 w2 H1 H2.
  - inversion H1; inversion H2; subst; congruence.
  - destruct e as [now i m |].
    + inversion H1; subst. inversion H2; subst.
      match goal with A : runs _ _ _ _ _ ?a, B : runs _ _ _ _ _ ?b |- _ =>
        pose proof (runs_det _ _ _ _ _ _ A B); subst end. eauto.
    + inversion H1; subst; inversion H2; subst;
        repeat match goal with A : fire _ _ = _, B : fire _ _ = _ |- _ => rewrite A in B; inversion B; subst; clear B end;
        try match goal with A : runs _ _ _ _ _ ?a, B : runs _ _ _ _ _ ?b |- _ =>
          pose proof (runs_det _ _ _ _ _ _ A B); subst end; eauto.
Qed.
Lemma sends_det p l o1 o2 : sends E p l o1 -> sends E p l o2 -> o1 = o2.
Proof.
  intros (w0 & w & H1 & H2 & <-) (v0 & v & H3 & H4 & <-).
  pose proof (runs_det _ _ _ _ _ _ H1 H3); subst. pose proof (plays_det _ _ _ _ _ H2 H4); subst. reflexivity.
Qed.

Lemma runs_nil fp now w : runs E fp now w [] w.
Proof. exists O. reflexivity. Qed.
Lemma runs_step fp now w t rest w1 ts w' :
  step E fp now w t = Ok (w1, ts) -> runs E fp now w1 (ts ++ rest) w' -> runs E fp now w (t :: rest) w'.
Proof. intros Hs [f Hf]. exists (S f). cbn [exec]. rewrite Hs. exact Hf. Qed.
Lemma plays_app fp l1 l2 : forall w w1 w2, plays E fp w l1 w1 -> plays E fp w1 l2 w2 -> plays E fp w (l1 ++ l2) w2.
Proof.
  induction l1 as [| e l IH]; intros w w1 w2 H1 H2; inversion H1; subst; cbn; eauto using plays_in, plays_due, plays_idle.
Qed.
End Runs.

Lemma one_zero : feqb fone fzero = false. Proof. reflexivity. Qed.
Lemma zero_zero : feqb fzero fzero = true. Proof. reflexivity. Qed.

(** Normal forms that keep the float functions, the comparison of a message with labels, and times. *)
Ltac norm := cbv -[feqb fltb fleb fadd fsub fmul fdiv fmax fmin of_int fone fzero narrow widen float_bits e_nan e_sr e_lib e_pow e_atan2
                   ms_to_samples to_u32 to_int c_div random_next random_value Bnearbyint unop_value switch_outlet Z.add Z.sub Z.mul enqueue drop_node pending log runs exec].
Ltac norm_in H := cbv -[feqb fltb fleb fadd fsub fmul fdiv fmax fmin of_int fone fzero narrow widen float_bits e_nan e_sr e_lib e_pow e_atan2
                   ms_to_samples to_u32 to_int c_div random_next random_value Bnearbyint unop_value switch_outlet Z.add Z.sub Z.mul enqueue drop_node pending log runs exec] in H.
Lemma log_nil s : log s [] = s.
Proof. apply app_nil_r. Qed.
(** Run until the stack is empty or a case is open; [facts] rewrites the open cases. *)
Ltac tidy := cbn [app].
Ltac one_step facts := eapply runs_step; [norm; repeat (progress facts; norm); reflexivity | tidy].
Ltac run facts := tidy; repeat (one_step facts); try (exact (runs_nil _ _ _ _)).
