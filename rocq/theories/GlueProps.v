(** Property theorems C253-C262 about the parameters of a Daisy board. *)
From Verif Require Import GlueProofs3.
From Coq Require Import String List Lia Bool.
Import ListNotations.
Local Open Scope list_scope.
Open Scope Z_scope.

Lemma board_distinct : NoDup (map c_name board).
Proof. repeat constructor; cbn; intuition discriminate. Qed.

(** C253: a patch is accepted for a board iff every input can be read from it and every output written to it. *)
Theorem board_accepts_iff : forall ins outs cs al, NoDup (map c_name cs) ->
  (exists g, parse_parameters ins outs cs al = Fine g) <->
  (forall k, In k ins -> readable cs (de_alias k al cs)) /\ (forall k, In k outs -> writable cs (de_alias k al cs)).
Proof. intros. apply parse_iff. assumption. Qed.
Print Assumptions board_accepts_iff.
Example board_accepts_some : exists g, parse_parameters [T "Knob1"; T "switch1_press"; T "ctrl2"] [T "LED"; T "cvout2"; T "gateout"] board board_aliases = Fine g.
Proof. eexists. vm_compute. reflexivity. Qed.

(** C254: every input the program reads belongs to a parameter of the patch, and is read from the component and in the way its name says. *)
Theorem input_reads_its_component : forall ins outs cs al g row, NoDup (map c_name cs) ->
  parse_parameters ins outs cs al = Fine g -> In row (g_ins g) ->
  In (i_enum row) ins /\ exists c m, owner cs (de_alias (i_enum row) al cs) c /\ In c (g_components g) /\ ~ cv c /\ i_name row = c_name c /\ i_kind row = c_kind c /\
    In m (c_map c) /\ format (m_name m) (c_name c) = de_alias (i_enum row) al cs /\ m_get m = Some (i_get row) /\
    (i_place row = Callback <-> m_where m = None \/ m_where m = Some (T "callback")) /\ i_place row <> Hook.
Proof.
  intros ins outs cs al g row ND G Hr. destruct (rows_in ins outs cs al ND g row G Hr) as ((l1 & l2 & E & _) & c & m & Ow & Nc & Sm & En & Ek & Eg & Ep).
  assert (Hk : In (i_enum row) ins) by (rewrite E; apply in_elt).
  split; [exact Hk|]. exists c, m. split; [exact Ow|]. split.
  { apply (parse_components ins outs cs al ND g G c (first_in _ _ _ Ow)). right. exists (i_enum row). split; [left; exact Hk|exact Ow]. }
  pose proof (first_in _ _ _ Sm) as Hm. destruct Sm as (a & b & _ & [[C _] | [_ F]] & _); [contradiction|].
  repeat split; try assumption.
  - rewrite Ep. unfold in_place. destruct (m_where m) as [t|]; [|left; reflexivity]. destruct (text_eqb_spec t (T "callback")) as [-> |]; [right; reflexivity|discriminate].
  - rewrite Ep. unfold in_place. intros [-> | ->]; reflexivity.
  - rewrite Ep. unfold in_place. destruct (m_where m); [destruct (text_eqb _ _)|]; discriminate.
Qed.
Print Assumptions input_reads_its_component.
Example input_reads_some : exists g row, parse_parameters [T "switch1_press"] [] board board_aliases = Fine g /\ In row (g_ins g) /\ i_name row = T "sw1" /\ i_get row = T "{name}.Pressed()".
Proof. eexists. eexists. split; [vm_compute; reflexivity|]. split; [left; reflexivity|]. split; reflexivity. Qed.

(** C255: different controls: then every parameter has its line, in the order of the patch, and every output its place in the table. *)
Theorem every_parameter_connected : forall ins outs cs al g,
  parse_parameters ins outs cs al = Fine g ->
  (NoDup (map (fun k => de_alias k al cs) ins) -> map i_enum (g_ins g) = ins) /\
  (NoDup (map (fun k => de_alias k al cs) outs) -> map o_enum (g_outs g) = outs) /\
  map o_index (g_outs g) = seq 0 (length (g_outs g)) /\ NoDup (map o_name (g_outs g)).
Proof.
  intros ins outs cs al g G. destruct (out_shape ins outs cs al g G) as (E1 & E2 & E3). repeat split.
  - intros H. rewrite (enums_in ins outs cs al g G). unfold params. rewrite (dict_distinct (fun k => de_alias k al cs) ins H), map_map. apply map_id.
  - intros H. rewrite E1. unfold params. rewrite (dict_distinct (fun k => de_alias k al cs) outs H), map_map. apply map_id.
  - exact E3.
  - rewrite E2. apply (dict_nodup (fun k => de_alias k al cs)).
Qed.
Print Assumptions every_parameter_connected.
Example every_parameter_some : NoDup (map (fun k => de_alias k board_aliases board) [T "Knob1"; T "switch1_press"; T "ctrl2"]).
Proof. vm_compute. repeat constructor; cbn; intuition discriminate. Qed.

(** C256: of several parameters for one control only the last has a line. *)
Theorem last_name_wins : forall ins outs cs al g, NoDup (map c_name cs) ->
  parse_parameters ins outs cs al = Fine g ->
  (forall k, In k (map i_enum (g_ins g)) <-> last_such (fun x => de_alias x al cs = de_alias k al cs) ins k) /\
  (forall k, In k (map o_enum (g_outs g)) <-> last_such (fun x => de_alias x al cs = de_alias k al cs) outs k).
Proof.
  intros ins outs cs al g ND G.
  assert (K : forall names k, In k (map snd (params names al cs)) <-> last_such (fun x => de_alias x al cs = de_alias k al cs) names k).
  { intros names k. rewrite in_map_iff. split.
    - intros (p & <- & Hp). destruct (params_from cs al names p Hp) as [_ E]. cbv beta in E. rewrite <- E. apply (params_in cs al names p). exact Hp.
    - intros H. exists (de_alias k al cs, k). split; [reflexivity|]. apply (params_in cs al names). exact H. }
  split; intros k.
  - rewrite (enums_in ins outs cs al g G). apply K.
  - destruct (out_shape ins outs cs al g G) as (-> & _). apply K.
Qed.
Print Assumptions last_name_wins.

(** C257 (refuted): every parameter of an accepted patch is connected.  Two receivers for one knob: the first gets nothing, without an error. *)
Theorem every_parameter_connected_refuted : exists ins g,
  NoDup ins /\ parse_parameters ins [] board board_aliases = Fine g /\ In (T "knob1") ins /\ ~ In (T "knob1") (map i_enum (g_ins g)).
Proof.
  exists [T "knob1"; T "ctrl"]. eexists. split; [|split; [vm_compute; reflexivity|split; [left; reflexivity|]]].
  - constructor; [intros [C | []]; discriminate|]. constructor; [intros []|constructor].
  - intros [C | []]. discriminate.
Qed.
Print Assumptions every_parameter_connected_refuted.

(** C258: what the errors mean. *)
Theorem board_errors : forall ins outs cs al e, NoDup (map c_name cs) -> parse_parameters ins outs cs al = Raise e ->
  match e with
  | NameError k => (In k ins \/ In k outs) /\
      ((forall c, In c cs -> ~ goes_by c (de_alias k al cs)) \/
       (In k outs /\ exists c, owner cs (de_alias k al cs) c /\ cv c /\ forall m, ~ selects c (de_alias k al cs) m))
  | TypeError k => exists c, owner cs (de_alias k al cs) c /\
      ((In k ins /\ (cv c \/ c_dir c = Some (T "output"))) \/ (In k outs /\ ~ cv c /\ c_dir c = Some (T "input")))
  | KeyError => exists k c, owner cs (de_alias k al cs) c /\
      (((In k ins \/ In k outs) /\ ~ cv c /\ c_dir c = None) \/
       (exists m, selects c (de_alias k al cs) m /\ ((In k ins /\ m_get m = None) \/ (In k outs /\ m_set m = None))))
  end.
Proof. intros ins outs cs al e ND H. exact (parse_raises ins outs cs al ND e H). Qed.
Print Assumptions board_errors.
Example board_errors_some : parse_parameters [T "knob7"] [] board board_aliases = Raise (NameError (T "knob7"))
  /\ parse_parameters [T "cvout1"] [] board board_aliases = Raise (TypeError (T "cvout1")).
Proof. split; vm_compute; reflexivity. Qed.

(** C259 (refuted): a parameter in the wrong direction is reported by name.  The components say "in" and "out", the test asks for "input" and
    "output": the led as an input and the knob as an output end in a KeyError. *)
Theorem wrong_direction_reported_refuted :
  c_dir (led "led1") = Some (T "out") /\ parse_parameters [T "led1"] [] board board_aliases = Raise KeyError /\
  c_dir (knob "knob1") = Some (T "in") /\ parse_parameters [] [T "knob1"] board board_aliases = Raise KeyError.
Proof. repeat split; vm_compute; reflexivity. Qed.
Print Assumptions wrong_direction_reported_refuted.
(** The direction of the shipped components is never the reason of an error. *)
Theorem direction_never_tested : forall ins outs cs al k, NoDup (map c_name cs) ->
  (forall c, In c cs -> cv c \/ c_dir c = Some (T "in") \/ c_dir c = Some (T "out")) ->
  parse_parameters ins outs cs al = Raise (TypeError k) -> In k ins /\ exists c, owner cs (de_alias k al cs) c /\ cv c.
Proof.
  intros ins outs cs al k ND Hd H. pose proof (parse_raises ins outs cs al ND _ H) as (c & Ow & X).
  destruct (Hd c (first_in _ _ _ Ow)) as [C | Dc].
  - destruct X as [[Hk _] | (_ & N & _)]; [|contradiction]. split; [exact Hk|]. exists c. split; assumption.
  - destruct X as [[Hk [C | E]] | (_ & _ & E)].
    + split; [exact Hk|]. exists c. split; assumption.
    + exfalso. rewrite E in Dc. destruct Dc as [Dc | Dc]; discriminate.
    + exfalso. rewrite E in Dc. destruct Dc as [Dc | Dc]; discriminate.
Qed.
Print Assumptions direction_never_tested.

(** C260: names are read without regard to case; an alias stands for its component, a variant of an alias for the variant of the component. *)
Theorem alias_exact : forall name al cs low, Forall2 small_of name low ->
  (forall t, NoDup (map fst al) -> In (low, t) al -> de_alias name al cs = t) /\
  (~ In low (map fst al) -> alias_variant al cs low (de_alias name al cs) \/ ((forall n, ~ alias_variant al cs low n) /\ de_alias name al cs = low)).
Proof. exact de_alias_cases. Qed.
Print Assumptions alias_exact.
Theorem alias_any_case : forall a b low al cs, Forall2 small_of a low -> Forall2 small_of b low -> de_alias a al cs = de_alias b al cs.
Proof. intros a b low al cs A B. apply small_lower in A. apply small_lower in B. unfold de_alias. rewrite <- A, <- B. reflexivity. Qed.
Print Assumptions alias_any_case.
Example alias_some : de_alias (T "Switch1_Press") board_aliases board = T "sw1_press" /\ de_alias (T "CTRL") board_aliases board = T "knob1"
  /\ NoDup (map fst board_aliases).
Proof. split; [vm_compute; reflexivity|]. split; [vm_compute; reflexivity|]. repeat constructor; cbn; intuition discriminate. Qed.

(** C261: the components of the program are the parents and those with a parameter, in the order of the board. *)
Theorem components_kept_iff_used : forall ins outs cs al g, NoDup (map c_name cs) -> parse_parameters ins outs cs al = Fine g ->
  (exists P, g_components g = filter P cs) /\
  forall c, In c cs -> (In c (g_components g) <-> c_parent c = true \/ exists k, (In k ins \/ In k outs) /\ owner cs (de_alias k al cs) c).
Proof. intros ins outs cs al g ND G. split; [exact (parse_components_order ins outs cs al g G)|exact (parse_components ins outs cs al ND g G)]. Qed.
Print Assumptions components_kept_iff_used.
Example components_some : exists g, parse_parameters [T "ctrl2"] [T "led"] board board_aliases = Fine g /\ map c_name (g_components g) = [T "knob2"; T "led1"].
Proof. eexists. split; [vm_compute; reflexivity|reflexivity]. Qed.

(** C262: an output of the patch reaches its component: its place in the table and the hook get the value, all the others stay. *)
Theorem output_reaches_its_component : forall ins outs cs al g i row (V : Type) (v : V) d, NoDup (map c_name cs) ->
  parse_parameters ins outs cs al = Fine g -> nth_error (g_outs g) i = Some row ->
  NoDup (map (fun r => hv_string_to_hash (o_enum r)) (g_outs g)) -> length d = length (g_outs g) ->
  (exists c m, owner cs (o_name row) c /\ o_comp row = c_name c /\ selects c (o_name row) m /\ m_set m = Some (o_set row) /\
     (o_place row = Hook <-> m_where m = Some (T "hook")) /\ (o_place row = Loop <-> m_where m = Some (T "loop"))) /\
  o_name row = de_alias (o_enum row) al cs /\ o_index row = i /\
  exists d', send_hook (g_outs g) (hv_string_to_hash (o_enum row)) v d [] = (d', match o_place row with Hook => [(o_name row, v)] | _ => [] end) /\
    length d' = length d /\ nth_error d' i = Some v /\ forall j, j <> i -> nth_error d' j = nth_error d j.
Proof.
  intros ins outs cs al g i row V v d ND G Hi Hh Hd. pose proof (nth_error_In _ _ Hi) as Hr.
  destruct (rows_out ins outs cs al ND g row G Hr) as (_ & En & c & m & Ow & Sm & Ec & Es & Ep).
  destruct (out_shape ins outs cs al g G) as (_ & _ & Ex).
  assert (Ei : o_index row = i).
  { pose proof (map_nth_error o_index _ _ Hi) as X. rewrite Ex in X.
    assert (L : (i < length (g_outs g))%nat) by (apply nth_error_Some; congruence).
    pose proof (nth_error_nth _ _ O X) as Y. rewrite seq_nth in Y by exact L. rewrite <- Y. reflexivity. }
  split; [|split; [exact En|split; [exact Ei|]]].
  - rewrite En. exists c, m. split; [exact Ow|]. split; [exact Ec|]. split; [exact Sm|]. split; [exact Es|]. rewrite Ep. unfold out_place.
    destruct (m_where m) as [t|].
    + destruct (text_eqb_spec t (T "callback")) as [-> | N1]; [split; split; discriminate|].
      destruct (text_eqb_spec t (T "loop")) as [-> | N2]; [split; split; try discriminate; reflexivity|].
      destruct (text_eqb_spec t (T "hook")) as [-> | N3]; [split; split; try discriminate; reflexivity|].
      split; split; try discriminate; intros C; injection C as C; contradiction.
    + split; split; discriminate.
  - rewrite (send_one (g_outs g) row v d Hh Hr), Ei. eexists. split; [reflexivity|]. split; [apply write_at_length|]. split.
    + rewrite write_at_nth, Nat.eqb_refl. destruct (nth_error d i) eqn:E; [reflexivity|]. apply nth_error_None in E.
      assert (L : (i < length (g_outs g))%nat) by (apply nth_error_Some; congruence). lia.
    + intros j Nj. rewrite write_at_nth. apply Nat.eqb_neq in Nj. rewrite Nj. reflexivity.
Qed.
Print Assumptions output_reaches_its_component.
Theorem other_messages_change_nothing : forall (V : Type) rows hash (v : V) d,
  (forall r, In r rows -> hv_string_to_hash (o_enum r) <> hash) -> send_hook rows hash v d [] = (d, []).
Proof. intros V rows hash v d H. apply send_none. intros C. apply in_map_iff in C. destruct C as (r & E & Hr). exact (H r Hr E). Qed.
Print Assumptions other_messages_change_nothing.
Example output_some : exists g, parse_parameters [] [T "LED"; T "gateout"] board board_aliases = Fine g
  /\ map (fun r => hv_string_to_hash (o_enum r)) (g_outs g) = [hv_string_to_hash (T "LED"); hv_string_to_hash (T "gateout")]
  /\ send_hook (g_outs g) (hv_string_to_hash (T "gateout")) 7 [1; 2] [] = ([1; 7], [(T "gateout", 7)]).
Proof. eexists. split; [vm_compute; reflexivity|]. split; reflexivity. Qed.

(** C263 (refuted): different names have different hashes, and an output changes only its own component. *)
Theorem names_told_apart_refuted :
  T "pitch_attack1" <> T "noisevolume" /\ hv_string_to_hash (T "pitch_attack1") = hv_string_to_hash (T "noisevolume") /\
  (exists g, parse_parameters [] [T "pitch_attack1"; T "noisevolume"] [led "noisevolume"; led "pitch_attack1"] [] = Fine g /\
     send_hook (g_outs g) (hv_string_to_hash (T "pitch_attack1")) 7 [1; 2] [] = ([7; 7], [])).
Proof.
  split; [discriminate|]. split; [vm_compute; reflexivity|]. eexists. split; [vm_compute; reflexivity|]. vm_compute. reflexivity.
Qed.
Print Assumptions names_told_apart_refuted.

(** C264 (refuted): a CV output named after the second channel drives the second channel. *)
Theorem cv_channel_refuted : exists g, parse_parameters [] [T "env1_cv2"] [cvout "env1_cv2"] [] = Fine g /\ map o_set (g_outs g) = [T "ONE"].
Proof. eexists. split; [vm_compute; reflexivity|]. reflexivity. Qed.
Print Assumptions cv_channel_refuted.
Example cv_channel_fine : exists g, parse_parameters [] [T "cvout"; T "cvout2"] board [(T "cvout", T "cvout1")] = Fine g /\ map o_set (g_outs g) = [T "ONE"; T "TWO"].
Proof. eexists. split; [vm_compute; reflexivity|]. reflexivity. Qed.

(** C265: the program runs at the greatest rate of the hardware that does not exceed the wish (at the smallest if all do), and with blocks of
    1 to 256 samples, as wished if possible. *)
Theorem rate_and_block : forall r b,
  In (samplerate r) rates /\ (8000 <= r -> samplerate r <= r /\ forall q, In q rates -> q <= r -> q <= samplerate r) /\ (r < 8000 -> samplerate r = 8000) /\ exists n, blocksize (Some b) = Some n /\ 1 <= n <= 256 /\ (1 <= b <= 256 -> n = b) /\ forall k, 1 <= k <= 256 -> Z.abs (n - b) <= Z.abs (k - b).
Proof.
  intros r b. unfold samplerate, rates, blocksize.
  destruct (Z.leb_spec 96000 r), (Z.leb_spec 48000 r), (Z.leb_spec 32000 r), (Z.leb_spec 16000 r); try lia;
    (split; [cbn [In]; tauto|split; [intros H8; split; [lia|intros q Hq L; cbn [In] in Hq; lia]|split; [lia|]]]);
    (eexists; split; [reflexivity|]; split; [lia|]; split; [lia|]; intros k Hk; lia).
Qed.
Print Assumptions rate_and_block.
Example rate_some : samplerate 44100 = 32000 /\ samplerate 192000 = 96000 /\ blocksize (Some 512) = Some 256.
Proof. repeat split. Qed.
