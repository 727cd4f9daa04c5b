(** The parameters of a patch. *)
From Verif Require Import ParamSpec ParamProofs ParamProofs2 ParamProofs3 ArgsProofs.
From Coq Require Import String List Lia ZArith Permutation.
Import ListNotations.
Local Open Scope list_scope.
Open Scope Z_scope.

(** Python's float() of texts of digits; used in examples and counterexamples only. *)
Definition digits (s : text) : option f64 :=
  match s with [] => None | _ => if forallb is_digit s then Some (d_of_int (fold_left (fun n c => 10 * n + (c - 48)) s 0)) else None end.

(** A box without @raw that becomes a parameter has a default between its limits. *)
Theorem parameter_default_within_limits fl order args : ~ mentions_raw args -> b_ext (receive_box fl order args) = Some Param ->
  exists a, b_attrs (receive_box fl order args) = Some a /\ in_limits (a_min a) (a_max a) (a_default a) /\ b_errors (receive_box fl order args) = O.
Proof. apply box_limits. Qed.
Print Assumptions parameter_default_within_limits.
(** The numbers of [r name @hv_param lo hi d] are the limits and the default, or an error is reported and the name is no parameter. *)
Theorem parameter_numbers_used fl order name lo hi d rest x y z : fl lo = Some x -> fl hi = Some y -> fl d = Some z ->
  let args := name :: T "@hv_param" :: lo :: hi :: d :: rest in ~ mentions_raw args ->
  let b := receive_box fl order args in
  b_name b = name /\
  (in_limits x y z -> b_ext b = Some Param /\ b_errors b = O /\
     b_attrs b = Some (mkAttrs x y z (Some (match rest with t :: _ => t | [] => T "float" end)) None)) /\
  (~ in_limits x y z -> b_ext b = None /\ b_errors b <> O).
Proof. apply box_given. Qed.
Print Assumptions parameter_numbers_used.
Example freq_box : let b := receive_box digits raw_words [T "freq"; T "@hv_param"; T "20"; T "2000"; T "440"; T "log"] in
  b_ext b = Some Param /\ b_attrs b = Some (mkAttrs (d_of_int 20) (d_of_int 2000) (d_of_int 440) (Some (T "log")) None).
Proof. split; reflexivity. Qed.
Example bad_box : let b := receive_box digits raw_words [T "freq"; T "@hv_param"; T "20"; T "2000"; T "10"] in b_ext b = None /\ b_errors b = 1%nat.
Proof. split; reflexivity. Qed.
(** [r x @raw A 10 20]: the default is (20 - 10) / 2 = 5, and no error is reported. *)
Theorem raw_default_outside_limits_refuted :
  exists args a, b_errors (receive_box digits raw_words args) = O /\ b_ext (receive_box digits raw_words args) = Some Param /\
    b_attrs (receive_box digits raw_words args) = Some a /\ ~ in_limits (a_min a) (a_max a) (a_default a).
Proof.
  eexists [T "x"; T "@raw"; T "A"; T "10"; T "20"], _. split; [reflexivity |]. split; [reflexivity |]. split; [reflexivity |].
  intros [H _]. vm_compute in H. discriminate H.
Qed.
Print Assumptions raw_default_outside_limits_refuted.
(** The numbers of [r name @raw out lo hi d] are used, and nothing is reported, if no argument is a word of @raw by itself. *)
Theorem raw_numbers_used fl order name out lo hi d x y z : Permutation order raw_words ->
  (forall u, In u raw_words -> In u (map replace_owl [name; out; lo; hi; d]) -> False) ->
  fl (replace_owl lo) = Some x -> fl (replace_owl hi) = Some y -> fl (replace_owl d) = Some z ->
  receive_box fl order [name; T "@raw"; out; lo; hi; d] = mkBox name (Some Param) (Some (mkAttrs x y z None (Some (replace_owl out)))) 0.
Proof. apply raw_given. Qed.
Print Assumptions raw_numbers_used.
Example raw_case : receive_box digits raw_words [T "x"; T "@raw"; T "A"; T "1"; T "20"; T "3"] =
  mkBox (T "x") (Some Param) (Some (mkAttrs (d_of_int 1) (d_of_int 20) (d_of_int 3) None (Some (T "A")))) 0.
Proof. reflexivity. Qed.
(** With one of the words of @raw the order in which Python runs through its set of words does not matter. *)
Theorem one_raw_word_is_deterministic fl order order' args w : Permutation order raw_words -> Permutation order' raw_words -> In w raw_words ->
  (forall u, In u raw_words -> In u (map replace_owl args) -> u = w) -> receive_box fl order args = receive_box fl order' args.
Proof. apply one_word. Qed.
Print Assumptions one_raw_word_is_deterministic.
Example one_word_case : let args := [T "x"; T "@owl"; T "A"; T "0"; T "20"] in
  (forall u, In u raw_words -> In u (map replace_owl args) -> u = T "@raw") /\ b_ext (receive_box digits raw_words args) = Some Param.
Proof.
  split; [| reflexivity].
  assert (H : forallb (fun u => implb (existsb (text_eqb u) (map replace_owl [T "x"; T "@owl"; T "A"; T "0"; T "20"])) (text_eqb u (T "@raw"))) raw_words = true) by reflexivity.
  rewrite forallb_forall in H. intros u I J. specialize (H u I). apply existsb_text in J. rewrite J in H. apply text_eqb_eq, H.
Qed.
(** With two of them it does: [r x @raw A 10 20 15 @raw_min 12]. *)
Theorem raw_words_order_refuted :
  exists args order order', Permutation order raw_words /\ Permutation order' raw_words /\
    option_map a_min (b_attrs (receive_box digits order args)) = Some (d_of_int 12) /\
    option_map a_min (b_attrs (receive_box digits order' args)) = Some (d_of_int 10).
Proof.
  exists [T "x"; T "@raw"; T "A"; T "10"; T "20"; T "15"; T "@raw_min"; T "12"], raw_words, (T "@raw_min" :: T "@raw" :: skipn 2 raw_words).
  split; [reflexivity |]. split; [apply perm_swap |]. split; reflexivity.
Qed.
Print Assumptions raw_words_order_refuted.

(** ** getParameterInfo *)
Theorem parameter_info_complete fl order pick boxes :
  (forall b, In b boxes -> exists args, b = receive_box fl order args) -> names_apart boxes -> snd (group pick boxes) = O ->
  let info i := fst (get_parameter_info (fst (group pick boxes)) i) in
  exists count, (forall i, snd (get_parameter_info (fst (group pick boxes)) i) = count) /\
    (forall i, 0 <= i < count -> describes boxes (info i)) /\
    (forall name, exported boxes name -> exists i, 0 <= i < count /\ i_name (info i) = name /\ forall j, 0 <= j < count -> i_name (info j) = name -> j = i) /\
    (forall i j, 0 <= i < j -> j < count -> text_leb (escape (i_name (info i))) (escape (i_name (info j))) = true) /\
    (forall i, ~ 0 <= i < count -> info i = invalid_info).
Proof.
  intros B A H0 info. assert (Hs : forall b, In b boxes -> sound_box b) by (intros b I; destruct (B b I) as [args ->]; apply box_sound).
  exists (zlen (externs (fst (group pick boxes)))). split; [reflexivity |]. unfold zlen, info. repeat split.
  - assert (D := info_describes pick boxes (Z.to_nat i) A Hs H0 ltac:(lia)). rewrite Z2Nat.id in D by lia. apply D.
  - assert (D := info_describes pick boxes (Z.to_nat i) A Hs H0 ltac:(lia)). rewrite Z2Nat.id in D by lia. apply D.
  - assert (D := info_describes pick boxes (Z.to_nat i) A Hs H0 ltac:(lia)). rewrite Z2Nat.id in D by lia. apply D.
  - assert (D := info_describes pick boxes (Z.to_nat i) A Hs H0 ltac:(lia)). rewrite Z2Nat.id in D by lia. eapply D; eauto.
  - assert (D := info_describes pick boxes (Z.to_nat i) A Hs H0 ltac:(lia)). rewrite Z2Nat.id in D by lia. eapply D; eauto.
  - assert (D := info_describes pick boxes (Z.to_nat i) A Hs H0 ltac:(lia)). rewrite Z2Nat.id in D by lia. eapply D; eauto.
  - intros name E. destruct (info_once pick boxes name A Hs H0 E) as (i & Li & Ni & U). exists (Z.of_nat i). split; [lia |]. split; [exact Ni |].
    intros j Hj Nj. rewrite <- (Z2Nat.id j) in Nj by lia. specialize (U (Z.to_nat j) ltac:(lia) Nj). lia.
  - intros i j Hi Hj. assert (D := info_sorted pick boxes (Z.to_nat i) (Z.to_nat j) A ltac:(lia)). rewrite !Z2Nat.id in D by lia. exact D.
  - intros i Hi. apply info_outside. exact Hi.
Qed.
Print Assumptions parameter_info_complete.
Example two_parameters : let box s := receive_box digits raw_words s in
  let boxes := [box [T "vol"; T "@hv_param"; T "0"; T "2"; T "1"]; box [T "other"]; box [T "bang"; T "@hv_event"]; box [T "vol"]] in
  let rs := fst (group Param boxes) in
  snd (group Param boxes) = O /\ map (fun i => i_name (fst (get_parameter_info rs i))) [0; 1; 2] = [T "bang"; T "vol"; T "invalid parameter index"] /\
  snd (get_parameter_info rs 0) = 2 /\ i_max (fst (get_parameter_info rs 1)) = d_of_int 2.
Proof. repeat split; reflexivity. Qed.
(** Names that differ, but not after a "_" is put before a digit: one of two parameters is missing, and no error is reported. *)
Theorem parameter_lost_refuted : exists args1 args2,
  let boxes := [receive_box digits raw_words args1; receive_box digits raw_words args2] in
  let rs := fst (group Param boxes) in
  snd (group Param boxes) = O /\ Forall (fun b => b_errors b = O) boxes /\ exported boxes (T "1a") /\ exported boxes (T "_1a") /\
  snd (get_parameter_info rs 0) = 1 /\ forall i, i_name (fst (get_parameter_info rs i)) <> T "1a".
Proof.
  exists [T "1a"; T "@hv_param"], [T "_1a"; T "@hv_param"]. cbv zeta. split; [reflexivity |]. split; [repeat constructor |].
  split; [eexists; split; [left; reflexivity | split; [reflexivity | discriminate]] |].
  split; [eexists; split; [right; left; reflexivity | split; [reflexivity | discriminate]] |].
  split; [reflexivity |]. intros i. destruct (Z.eq_dec i 0) as [-> | N]; [discriminate |].
  rewrite info_outside; [discriminate |]. match goal with |- ~ (0 <= i < ?n) => change n with 1 end. lia.
Qed.
Print Assumptions parameter_lost_refuted.
(** The check of the names finds no conflict if and only if no two names differ in the case of letters at most. *)
Theorem name_check_exact keys : name_conflicts keys = O <-> forall i j a b, (i < j)%nat -> nth_error keys i = Some a -> nth_error keys j = Some b -> ~ same_but_case a b.
Proof. rewrite <- nodup_apart. split; [apply conflicts_none | apply conflicts_some]. Qed.
Print Assumptions name_check_exact.
Example name_check_case : name_conflicts [T "vol"; T "pan"; T "Vol"] = 1%nat /\ name_conflicts [T "vol"; T "pan"] = O.
Proof. split; reflexivity. Qed.
(** Each list is checked by itself: an input and an output parameter of the same name become the same enumerator of the DPF plugin. *)
Theorem dpf_enumerators_clash_refuted : exists ins outs, name_conflicts ins = O /\ name_conflicts outs = O /\ ~ NoDup (dpf_enumerators ins outs).
Proof.
  exists [T "vol"], [T "vol"]. split; [reflexivity |]. split; [reflexivity |]. intros N. inversion N as [| ? ? H _]. apply H. left. reflexivity.
Qed.
Print Assumptions dpf_enumerators_clash_refuted.

(** ** The parameters of a DPF plugin *)
(** Whatever happens: nothing fails, and getParameterValue gives what was set or sent last, or the default. *)
Theorem plugin_value_is_the_last ins outs kb record junk defaults l : (forall h v, zlen (record h v) = 32) -> 1 <= kb <= 4000000 ->
  length defaults = (length ins + length outs)%nat ->
  exists p, plugin_run ins outs defaults kb record junk l = Ok p /\
    forall i d, nth_error defaults i = Some d -> get_parameter p i = Some (last_value ins outs i d l).
Proof.
  intros size kbs L. unfold plugin_run. destruct (context_good ins outs kb record size kbs junk defaults L) as (p0 & E0 & G0 & V0). rewrite E0. cbn [obind].
  destruct (happen_all_good ins outs kb record size kbs l p0 G0 ltac:(rewrite V0; exact L)) as (p & E & H). exists p. split; [exact E |].
  intros i d Hd. apply H. rewrite V0. exact Hd.
Qed.
Print Assumptions plugin_value_is_the_last.
(** After a change of the sample rate the new context is told the value of every input parameter, in their order; nothing is refused. *)
Theorem new_context_gets_all_values ins outs record junk junk' defaults l events midi :
  let kb := input_queue_kb (zlen ins) events midi in
  (forall h v, zlen (record h v) = 32) -> 0 <= events -> 0 <= midi -> kb <= 4000000 -> length defaults = (length ins + length outs)%nat ->
  exists p, plugin_run ins outs defaults kb record junk (l ++ [NewRate junk']) = Ok p /\ refused (g_queue p) = [] /\
    exists values, length values = length ins /\ sent (g_queue p) = map (fun x => record (fst x) (snd x)) (combine ins values) /\
      forall i d, (i < length ins)%nat -> nth_error defaults i = Some d ->
        nth_error values i = Some (last_value ins outs i d l) /\ get_parameter p i = Some (last_value ins outs i d l).
Proof.
  intros kb size He Hm Hk L. assert (B : 2 <= kb /\ zlen ins <= kb).
  { unfold kb, input_queue_kb. assert (zlen ins <= (4 * zlen ins + events + 4 * midi) / 4) by (apply Z.div_le_lower_bound; lia). lia. }
  assert (K : 1 <= kb <= 4000000) by lia. unfold plugin_run.
  destruct (context_good ins outs kb record size K junk defaults L) as (p0 & E0 & G0 & V0). rewrite E0. cbn [obind]. rewrite happen_all_app.
  destruct (happen_all_good ins outs kb record size K l p0 G0 ltac:(rewrite V0; exact L)) as (p & E & H). rewrite E. cbn [obind happen_all happen].
  assert (Lp : length (g_values p) = (length ins + length outs)%nat) by exact (happen_all_length ins outs kb record size K l p0 p G0 ltac:(rewrite V0; exact L) E).
  destruct (context_told ins outs kb record size K junk' (g_values p) Lp ltac:(unfold zlen in *; lia)) as (q & E1 & _ & V1 & S1 & R1).
  rewrite E1. cbn [obind]. exists q. split; [reflexivity |]. split; [exact R1 |]. exists (firstn (length ins) (g_values p)).
  split; [rewrite firstn_length; lia |]. split; [rewrite S1, combine_firstn_l; reflexivity |]. intros i d Hi Hd. rewrite nth_error_firstn_lt by exact Hi.
  unfold get_parameter. rewrite V1. assert (Hv : nth_error (g_values p0) i = Some d) by (rewrite V0; exact Hd). rewrite (H i d Hv). auto.
Qed.
Print Assumptions new_context_gets_all_values.
(** One parameter, and the queue of 2 KB that the compiler gives it: if the host sets it 56 times before the context reads its queue, the
    next value is refused, though getParameterValue gives it: the patch keeps an older value. *)
Theorem automation_lost_refuted record junk h d l v : (forall h v, zlen (record h v) = 32) -> 56 <= zlen l ->
  let kb := input_queue_kb 1 0 0 in
  exists p q, plugin_run [h] [] [d] kb record junk (map (SetParam 0) l) = Ok p /\ happen [h] [] kb record p (SetParam 0 v) = Ok q /\
    get_parameter q 0 = Some v /\ sent (g_queue q) = sent (g_queue p) /\ refused (g_queue q) = refused (g_queue p) ++ [record h v].
Proof.
  intros size Hl kb. assert (K : 1 <= kb <= 4000000) by (cbv; split; discriminate). unfold plugin_run.
  destruct (context_told [h] [] kb record size K junk [d] eq_refl ltac:(cbv; discriminate)) as (p0 & E0 & F0 & V0 & _). rewrite E0. cbn [obind].
  destruct (sets_fill [h] [] kb record size K h l eq_refl 1 p0 ltac:(rewrite V0; cbn; lia) F0 ltac:(lia)) as (p & E & Lp & k & B1 & F & B2).
  rewrite E. change (kb * 1024) with 2048 in *.
  destruct (set_refused [h] kb record size K p 0 v h k F eq_refl ltac:(lia) ltac:(change (kb * 1024) with 2048; lia)) as (q & E1 & V1 & _ & S1 & R1).
  exists p, q. split; [reflexivity |]. split; [exact E1 |]. split; [| split; assumption]. unfold get_parameter. rewrite V1, set_value_nth by (rewrite Lp, V0; cbn; lia). reflexivity.
Qed.
Print Assumptions automation_lost_refuted.
Example some_automation : let record := fun (h : Z) (v : f32) => repeat 0 32 in
  (forall h v, zlen (record h v) = 32) /\ 56 <= zlen (repeat fone 60) /\ input_queue_kb 1 0 0 = 2 /\ input_queue_kb 20 5 1 = 22.
Proof. repeat split; intros; reflexivity || (cbv; discriminate). Qed.
