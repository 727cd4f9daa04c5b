(** Model of how the context converts between milliseconds and samples:
    /repo/hvcc/generators/ir2c/static/HeavyContext.hpp:38-39, HvControlDelay.c:67-73,
    HeavyContext.cpp:114-119.  Sample rates and message delays are doubles, control values floats. *)
From Verif Require Export Float64.

Section Time.
Variable sr : f64.   (* HeavyContext::sampleRate *)
(** HeavyContext::millisecondsToSamples, HeavyContext.hpp:39: hv_max_f is fmaxf; the float is widened for
    the multiplication. *)
Definition ms_to_samples (ms : f32) : outcome Z :=
  d_to_u32 (ddiv (dmul (widen (fmax fzero ms)) sr) (d_of_int 1000)).
(** HeavyContext::samplesToMilliseconds, l.38, [n] a hv_uint32_t. *)
Definition samples_to_ms (n : Z) : f32 :=
  narrow (ddiv (dmul (d_of_int 1000) (d_of_int n)) sr).
(** HeavyContext::sendMessageToReceiver, HeavyContext.cpp:114-119: the timestamp of the message;
    [start] is blockStartTimestamp. *)
Definition message_time (start : Z) (delay : f64) : outcome Z :=
  assert! dleb dzero delay in
  let! n := d_to_u32 (dmul (dmax dzero delay) (ddiv sr (d_of_int 1000))) in
  Ok (u32 (start + n)).
(** HvControlDelay.c:67-81, inlets 1 and 2 of [__delay]: the new delay in samples. *)
Definition delay_inlet (letIn : Z) (f : f32) : outcome Z :=
  if letIn =? 1 then ms_to_samples f else to_u32 (fmax fzero f).
End Time.
