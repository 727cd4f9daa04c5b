(** The print hooks of the generated plugins. *)
From Verif Require Import HookSpec HookProofs.
From Coq Require Import List Lia ZArith.
Import ListNotations.
Open Scope Z_scope.

(** Daisy and OWL: whatever the label and the message, all writes are in the buffer, and all of it is written. *)
Theorem print_hook_stays_in_its_buffer label message : exists b, stp_buffer label message = Ok (map Some b) /\ length b = 64%nat.
Proof.
  eexists. split; [apply stp_runs |]. rewrite !app_length, str_n_length, firstn_length. cbn [length]. lia.
Qed.
Print Assumptions print_hook_stays_in_its_buffer.
(** Labels up to 48 characters with messages that leave room for the space and the end: label, space, message. *)
Theorem print_hook_prints_label_and_message label message : c_text label -> c_text message -> (length label <= 48)%nat -> (length label + length message <= 62)%nat ->
  stp_print label message = Ok (line label message).
Proof. intros A B L H. rewrite stp_short by (assumption || lia). rewrite firstn_all2 by exact L. reflexivity. Qed.
Print Assumptions print_hook_prints_label_and_message.
Example print_case : c_text [97; 98] /\ c_text [49; 32; 50] /\ stp_print [97; 98] [49; 32; 50] = Ok [97; 98; 32; 49; 32; 50].
Proof. split; [repeat constructor; discriminate |]. split; [repeat constructor; discriminate | reflexivity]. Qed.
(** Every longer message leaves the buffer without an end: the reader runs out of it. *)
Theorem print_hook_long_messages_refuted label message : c_text label -> c_text message -> (63 <= Nat.min 48 (length label) + length message)%nat -> stp_print label message = UB.
Proof. intros A B H. apply stp_long; [exact A | exact B | lia]. Qed.
Print Assumptions print_hook_long_messages_refuted.
Example long_case : c_text [97] /\ c_text (repeat 49 62) /\ (63 <= Nat.min 48 (length [97]) + length (repeat 49 62))%nat.
Proof. split; [repeat constructor; discriminate |]. split; [repeat constructor; discriminate | cbn; lia]. Qed.
(** DPF: short messages are printed, without their label. *)
Theorem dpf_print_hook_prints_the_message label message : c_text message -> (Nat.min 48 (length label) + length message <= 62)%nat -> dpf_print label message = Ok message.
Proof. intros A H. apply dpf_short; [exact A | lia]. Qed.
Print Assumptions dpf_print_hook_prints_the_message.
Theorem dpf_print_hook_label_refuted label message : c_text message -> (Nat.min 48 (length label) + length message <= 62)%nat -> dpf_print label message <> Ok (line label message).
Proof.
  intros A H E. rewrite dpf_short in E by (assumption || lia). apply (f_equal (fun x => match x with Ok l => length l | _ => O end)) in E.
  unfold line in E. rewrite !app_length in E. cbn [length] in E. lia.
Qed.
Print Assumptions dpf_print_hook_label_refuted.
(** The end is not written for longer ones, and bytes that were never written are read. *)
Theorem dpf_print_hook_long_messages_refuted label message : c_text label -> c_text message -> (63 <= Nat.min 48 (length label) + length message)%nat -> dpf_print label message = UB.
Proof. intros A B H. apply dpf_long; [exact A | exact B | lia]. Qed.
Print Assumptions dpf_print_hook_long_messages_refuted.
Example dpf_case : dpf_print [97; 98] [49; 32; 50] = Ok [49; 32; 50].
Proof. reflexivity. Qed.
