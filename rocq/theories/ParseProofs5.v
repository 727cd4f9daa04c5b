(** Reading canvases. *)
From Verif Require Import ParseModel ParseSpec ParseProofs ParseProofs2 ParseProofs3 ParseProofs4.
From Coq Require Import Lia String ZifyBool.
Local Open Scope list_scope.
Local Open Scope Z_scope.

Lemma read_canvas_more f : forall c ls r k, read_canvas f c ls = Some r -> read_canvas (f + k) c ls = Some r.
Proof.
  induction f as [|f IH]; intros c ls r k H; [discriminate|]. cbn [read_canvas Nat.add] in H |- *. destruct ls as [|line rest]; auto.
  destruct (is_word_at line 0 "#N" && is_word_at line 1 "canvas").
  - destruct (positioned line); auto. destruct (read_canvas f empty_canvas rest) as [[o rest']|] eqn:E; [|discriminate].
    rewrite (IH _ _ _ k E). apply IH. auto.
  - destruct (is_word_at line 0 "#X" && is_word_at line 1 "restore"); auto. destruct (read_line c line); [|discriminate]. apply IH. auto.
Qed.

(** The lines of records. *)
Definition line (r : rec) : list text := map held (r_atoms r).
Lemma xy_line k x y ws w : held (T k) = T k -> line (mkRec (at_xy k x y ws) w) = [T "#X"; T k; int_text x; int_text y] ++ map held ws.
Proof. intro H. unfold line, at_xy. cbn [r_atoms map app]. rewrite H, !held_int. reflexivity. Qed.
Lemma xy_pos a b x y ws : positioned ([a; b; int_text x; int_text y] ++ ws) = true.
Proof. unfold positioned, int_at. cbn [nth_error app]. rewrite !read_int_text. reflexivity. Qed.

(** What a thing adds. *)
Definition sends (n : nat) (t : thing) : list (nat * text) :=
  match t with
  | Obj _ _ ws _ => match gui_args ws with
                    | Some (i, _) => match nth_error ws i with Some a => if text_eqb a (T "empty") then [] else [(n, held a)] | None => [] end
                    | None => []
                    end
  | _ => []
  end.
Definition recvs (n : nat) (t : thing) : list (nat * text) :=
  match t with
  | Obj _ _ ws _ => match gui_args ws with
                    | Some (_, j) => match nth_error ws j with Some a => if text_eqb a (T "empty") then [] else [(n, held a)] | None => [] end
                    | None => []
                    end
  | _ => []
  end.
Definition remotes (n : nat) (t : thing) : list (nat * list (text * list text)) :=
  match t with Msg _ _ _ r => [(n, map expand r)] | _ => [] end.
Definition after (c : canvas) (t : thing) : canvas :=
  mkCanvas (c_objs c ++ [object_of t]) (c_conns c) (c_array c) (c_msg c ++ remotes (next_index c) t)
           (c_send c ++ sends (next_index c) t) (c_recv c ++ recvs (next_index c) t).

Lemma gui_held ty args : gui_index (held ty) = match gui_args (ty :: args) with Some (i, j) => Some (pred i, pred j) | None => None end.
Proof.
  unfold gui_index, gui_args. cbn [existsb].
  rewrite !(held_eqb ty (T _)) by lit.
  destruct (text_eqb ty (T "nbx") || _); [reflexivity|]. destruct (text_eqb ty (T "vradio") || _); [reflexivity|].
  destruct (text_eqb ty (T "tgl")); [reflexivity|]. destruct (text_eqb ty (T "knob") || _); reflexivity.
Qed.
Lemma gui_pos ws i j : gui_args ws = Some (i, j) -> (0 < i /\ 0 < j)%nat.
Proof.
  unfold gui_args. destruct ws as [|ty ws]; [discriminate|].
  destruct (existsb _ [T "nbx"; _; _]); [intro H; injection H as <- <-; lia|]. destruct (existsb _ [T "vradio"; _; _]); [intro H; injection H as <- <-; lia|].
  destruct (text_eqb ty (T "tgl")); [intro H; injection H as <- <-; lia|]. destruct (existsb _ [T "knob"; _]); [intro H; injection H as <- <-; lia|discriminate].
Qed.
Lemma empty_held a : text_eqb (held a) (T "empty") = text_eqb a (T "empty").
Proof. apply held_eqb; lit. Qed.
Lemma app_if {A} (b : bool) (l x : list A) : (if b then l else l ++ x) = l ++ (if b then [] else x).
Proof. destruct b; [rewrite app_nil_r|]; reflexivity. Qed.

(** Things of one line. *)
Lemma read_comment c x y ws : read_line c (line (plain_rec (at_xy "text" x y ws))) = Some (after c (Comment x y ws)).
Proof.
  unfold plain_rec. rewrite xy_line by reflexivity. unfold read_line. rewrite xy_pos.
  unfold after, add_object, remotes, sends, recvs. cbn [object_of]. rewrite !app_nil_r. reflexivity.
Qed.
Lemma read_obj c x y ws w : plain_obj ws -> read_line c (line (mkRec (at_xy "obj" x y ws) w)) = Some (after c (Obj x y ws w)).
Proof.
  intros [B G]. rewrite xy_line by reflexivity. unfold read_line. rewrite xy_pos. cbn [skipn app].
  destruct ws as [|ty args]; [destruct B|]. unfold after. cbn [object_of remotes sends recvs map].
  change (is_word_at _ 1 "text") with false. change (is_word_at _ 1 "obj") with true. change (text_eqb (T "#X") (T "#N")) with false.
  change (text_eqb (T "#X") (T "#X")) with true. cbv iota.
  rewrite (held_eqb ty (T "block~")) by lit. rewrite text_eqb_neq by auto. rewrite (gui_held ty args).
  destruct (gui_args (ty :: args)) as [[i j]|] eqn:E; cbn [option_map].
  - destruct (gui_pos _ _ _ E) as [I J]. destruct G as [Gi Gj]. destruct i as [|i]; [lia|]. destruct j as [|j]; [lia|]. cbn [nth_error pred] in *.
    rewrite !nth_error_map. destruct (nth_error args i) as [a|]; [|congruence]. destruct (nth_error args j) as [b|]; [|congruence].
    cbn [option_map]. unfold set_gui, add_object. cbn [c_objs c_conns c_array c_msg c_send c_recv]. rewrite !empty_held, !app_if, app_nil_r. reflexivity.
  - unfold add_object. rewrite !app_nil_r. reflexivity.
Qed.
Lemma read_msg c x y local remote : local <> [] -> messages_ok local -> Forall (fun r => word_ok (fst r) /\ messages_ok (snd r)) remote ->
  read_line c (line (plain_rec (at_xy "msg" x y (box_atoms local remote)))) = Some (after c (Msg x y local remote)).
Proof.
  intros N M R. unfold plain_rec. rewrite xy_line by reflexivity. unfold read_line. rewrite xy_pos.
  assert (E : read_box (join (T " ") (skipn 4 ([T "#X"; T "msg"; int_text x; int_text y] ++ map held (box_atoms local remote)))) = Some (mkBox local (map expand remote)))
    by (cbn [skipn app]; apply box_read; auto).
  rewrite E. unfold after, add_object, remotes, sends, recvs. cbn [object_of m_remote c_objs c_conns c_array c_msg c_send c_recv]. rewrite !app_nil_r. reflexivity.
Qed.
Lemma read_wire c w : read_line c (line (wire_rec w)) = Some (add_conn c w).
Proof.
  destruct w as [[[a o] b] i]. unfold line, wire_rec, plain_rec. cbn [r_atoms map]. rewrite !held_int. unfold read_line, int_at. cbn [nth_error].
  rewrite !read_int_text. reflexivity.
Qed.
(** A line of that kind is one step. *)
Lemma step_line f c l rest c' r : is_word_at l 0 "#N" = false -> is_word_at l 1 "restore" = false -> read_line c l = Some c' ->
  read_canvas f c' rest = Some r -> read_canvas (S f) c (l :: rest) = Some r.
Proof. intros A B C D. cbn [read_canvas]. rewrite A, B, C. cbn [andb]. rewrite andb_false_r. exact D. Qed.
Lemma xy_word0 k x y ws w : is_word_at (line (mkRec (at_xy k x y ws) w)) 0 "#N" = false.
Proof. reflexivity. Qed.

Lemma steps_wires ws : forall f c rest r,
  read_canvas f (mkCanvas (c_objs c) (c_conns c ++ ws) (c_array c) (c_msg c) (c_send c) (c_recv c)) rest = Some r ->
  read_canvas (List.length ws + f) c (map line (map wire_rec ws) ++ rest) = Some r.
Proof.
  induction ws as [|w ws IH]; intros f c rest r H.
  - rewrite app_nil_r in H. destruct c. exact H.
  - cbn [map app List.length Nat.add]. apply (step_line _ _ _ _ (add_conn c w)).
    + destruct w as [[[a o] b] i]. reflexivity.
    + destruct w as [[[a o] b] i]. reflexivity.
    + apply read_wire.
    + apply IH. cbn [add_conn c_objs c_conns c_array c_msg c_send c_recv]. rewrite <- app_assoc. exact H.
Qed.
Definition steps (t : thing) : Prop := forall b f c rest r, thing_ok b t -> read_canvas f (after c t) rest = Some r ->
  read_canvas (List.length (thing_recs t) + f) c (map line (thing_recs t) ++ rest) = Some r.
Lemma steps_things ts : Forall steps ts -> forall b, Forall (thing_ok b) ts -> forall f c rest r,
  read_canvas f (fold_left after ts c) rest = Some r ->
  read_canvas (List.length (flat_map thing_recs ts) + f) c (map line (flat_map thing_recs ts) ++ rest) = Some r.
Proof.
  intros F b. induction F as [|t ts S _ IH]; intros K f c rest r H; [exact H|]. inversion K; subst. cbn [flat_map]. rewrite app_length, map_app, <- app_assoc, <- Nat.add_assoc.
  apply (S b); auto.
Qed.
Lemma after_all ts : forall c, c_objs (fold_left after ts c) = c_objs c ++ map object_of ts /\ c_conns (fold_left after ts c) = c_conns c /\
  c_array (fold_left after ts c) = c_array c.
Proof.
  induction ts as [|t ts IH]; intro c; [rewrite app_nil_r; auto|]. cbn [fold_left map]. destruct (IH (after c t)) as (A & B & C). rewrite A, B, C.
  cbn [after c_objs c_conns c_array]. rewrite <- app_assoc. auto.
Qed.
Lemma sub_line x y : line (sub_rec x y) = [T "#N"; T "canvas"; int_text x; int_text y] ++ [T "450"; T "300"; T "sub"; T "0"].
Proof. unfold line, sub_rec, plain_rec. cbn [r_atoms map app]. rewrite !held_int. reflexivity. Qed.
(** Tables. *)
Lemma held_nospace n : ~ In 32 n -> ~ In 32 (held n).
Proof.
  induction n as [|c n IH]; intros H I; [destruct I|]. rewrite held_cons in I. apply in_app_iff in I as [I|I].
  - destruct ((c =? 44) || (c =? 59) || (c =? 92) || dollar_digit c n); cbn in I.
    + destruct I as [I|[I|[]]]; [discriminate|]. subst. apply H. left. auto.
    + destruct I as [I|[]]. subst. apply H. left. auto.
  - apply IH in I; auto. intro; apply H; right; auto.
Qed.
Lemma split_none s : ~ In 32 s -> forall cur, split_from (T " ") s cur 0 = [cur ++ s].
Proof.
  induction s as [|c s IH]; intros H cur; [rewrite app_nil_r; reflexivity|]. cbn [split_from].
  assert (E : starts (T " ") (c :: s) = false). { change (T " ") with [32]. cbn [starts]. replace (32 =? c) with false; [reflexivity|]. symmetry. apply Z.eqb_neq. intros <-. apply H. left. auto. }
  rewrite E, IH by (intro; apply H; right; auto). rewrite <- app_assoc. reflexivity.
Qed.
Lemma read_array n size : ~ In 32 n -> read_line empty_canvas (line (array_rec n size)) = Some (mkCanvas [OTable [held n] size []] [] (Some 0%nat) [] [] []).
Proof.
  intro H. unfold line, array_rec, plain_rec. cbn [r_atoms map]. rewrite held_int. unfold read_line, int_at, word_at. cbn [nth_error].
  rewrite read_int_text. unfold split_on. rewrite split_none by (apply held_nospace; auto). reflexivity.
Qed.
Lemma steps_values ch : forall i f n size vs rest r,
  read_canvas f (mkCanvas [OTable n size (vs ++ map held (List.concat ch))] [] (Some 0%nat) [] [] []) rest = Some r ->
  read_canvas (List.length (values_recs i ch) + f) (mkCanvas [OTable n size vs] [] (Some 0%nat) [] [] []) (map line (values_recs i ch) ++ rest) = Some r.
Proof.
  induction ch as [|l ch IH]; intros i f n size vs rest r H.
  - cbn [List.concat map] in H. rewrite app_nil_r in H. exact H.
  - cbn [values_recs map app List.length Nat.add]. eapply (step_line _ _ _ _ (mkCanvas [OTable n size (vs ++ map held l)] [] (Some 0%nat) [] [] [])).
    + reflexivity.
    + unfold line, plain_rec. cbn [r_atoms map app]. unfold is_word_at. cbn [nth_error]. rewrite held_int.
      apply text_eqb_neq. intro E. pose proof (int_text_chars i) as F. rewrite E in F. inversion F as [|? ? X _]; subst. cbn in X. lia.
    + reflexivity.
    + apply IH. cbn [List.concat] in H. rewrite map_app, app_assoc in H. exact H.
Qed.
Lemma finish_same n vs : finish_array (OTable n (zlen vs) vs) = OTable n (zlen vs) vs.
Proof. unfold finish_array. rewrite Z.eqb_refl. reflexivity. Qed.
Lemma table_read ch : forall f n rest x y, ~ In 32 n ->
  read_canvas (S (List.length (values_recs 0 ch) + (2 + f))) empty_canvas
    (line (array_rec n (zlen (List.concat ch))) :: map line (values_recs 0 ch) ++ line coords_rec :: line (plain_rec (at_xy "restore" x y [T "graph"])) :: rest) =
  Some (OGraph (T "subpatch") (mkGraph [OTable [held n] (zlen (List.concat ch)) (map held (List.concat ch))] []), rest).
Proof.
  intros f n rest x y H. eapply step_line; [reflexivity|reflexivity|apply read_array; auto|]. apply steps_values. cbn [app Nat.add].
  eapply step_line; [reflexivity|reflexivity|reflexivity|]. unfold plain_rec. rewrite xy_line by reflexivity. cbn [read_canvas].
  change (is_word_at _ 0 "#N" && is_word_at _ 1 "canvas") with false. change (is_word_at _ 0 "#X" && is_word_at _ 1 "restore") with true. cbv iota.
  cbn [c_array c_objs c_conns update]. replace (zlen (List.concat ch)) with (zlen (map held (List.concat ch))) by (unfold zlen; rewrite map_length; reflexivity).
  rewrite finish_same. reflexivity.
Qed.
Lemma thing_steps t : steps t.
Proof.
  induction t as [x y ws|x y ws w|x y l r|x y n ts ws IH|x y n ch] using thing_rect'; intros b f c rest res H R.
  - cbn [thing_recs map app List.length Nat.add]. eapply step_line; [reflexivity|reflexivity|apply read_comment|exact R].
  - destruct H as (_ & _ & P & _). cbn [thing_recs map app List.length Nat.add]. eapply step_line; [reflexivity|reflexivity|apply read_obj; auto|exact R].
  - destruct H as (_ & N & M & Re & _). cbn [thing_recs map app List.length Nat.add]. eapply step_line; [reflexivity|reflexivity|apply read_msg; auto|exact R].
  - apply thing_ok_sub in H as (_ & F & W & Hn & K). rewrite thing_recs_sub. cbn [List.length map app Nat.add].
    rewrite !app_length, !map_app, <- !app_assoc. rewrite sub_line.
    remember (List.length (flat_map thing_recs ts) + (List.length (map wire_rec ws) + List.length [plain_rec (at_xy "restore" x y (T "pd" :: n))]))%nat as m eqn:Hm.
    cbn [read_canvas]. change (is_word_at _ 0 "#N" && is_word_at _ 1 "canvas") with true. cbv iota. rewrite xy_pos.
    set (o := OGraph (match n with [] => T "subpatch" | _ => join (T " ") (map held n) end) (mkGraph (map object_of ts) ws)).
    assert (E : read_canvas (m + f) empty_canvas (map line (flat_map thing_recs ts) ++ map line (map wire_rec ws) ++ map line [plain_rec (at_xy "restore" x y (T "pd" :: n))] ++ rest) = Some (o, rest)).
    { apply read_canvas_more. rewrite Hm. apply (steps_things ts IH true); auto. rewrite map_length. apply steps_wires. cbn [map app List.length].
      destruct (after_all ts empty_canvas) as (Ao & Ac & Aa). cbn [c_objs c_conns c_array app empty_canvas] in Ao, Ac, Aa.
      unfold plain_rec. rewrite xy_line by reflexivity. cbn [read_canvas].
      change (is_word_at _ 0 "#N" && is_word_at _ 1 "canvas") with false. change (is_word_at _ 0 "#X" && is_word_at _ 1 "restore") with true. cbv iota.
      cbn [c_array c_objs c_conns]. rewrite Ao, Ac, Aa. cbn [app].
      assert (HV : is_word_at ([T "#X"; T "restore"; int_text x; int_text y] ++ map held (T "pd" :: n)) 5 "@hv_obj" = false).
      { unfold is_word_at. cbn [app map nth_error]. destruct n as [|w n]; [reflexivity|]. cbn [map]. rewrite (held_eqb w (T "@hv_obj")) by lit. apply text_eqb_neq. exact Hn. }
      cbn [app] in HV. rewrite HV. unfold o. f_equal. f_equal. f_equal. destruct n as [|w n]; [reflexivity|]. cbn [map List.length Nat.ltb Nat.leb skipn]. reflexivity. }
    rewrite E. replace (add_object c o) with (after c (Sub x y n (mkSheet ts ws))).
    + rewrite Nat.add_comm. apply read_canvas_more. exact R.
    + unfold after, add_object, remotes, sends, recvs. rewrite !app_nil_r. rewrite object_of_sub. reflexivity.
  - destruct H as (_ & _ & Sp & _). rewrite thing_recs_table. cbn [List.length map app Nat.add]. rewrite app_length, map_app, <- app_assoc. rewrite sub_line.
    cbn [map app List.length]. rewrite <- Nat.add_assoc. remember (S (List.length (values_recs 0 ch) + (2 + f))) as m eqn:Hm.
    cbn [read_canvas]. change (is_word_at _ 0 "#N" && is_word_at _ 1 "canvas") with true. cbv iota.
    change (T "#N" :: T "canvas" :: int_text x :: int_text y :: ?l) with ([T "#N"; T "canvas"; int_text x; int_text y] ++ l). rewrite xy_pos.
    assert (TR := table_read ch f n rest x y Sp). rewrite <- Hm in TR. rewrite TR. subst m.
    replace (add_object c _) with (after c (Table x y n ch)).
    + rewrite Nat.add_assoc. rewrite <- Nat.add_succ_l. rewrite Nat.add_comm. apply read_canvas_more. exact R.
    + unfold after, add_object, remotes, sends, recvs. rewrite !app_nil_r. reflexivity.
Qed.

(** ** The whole file *)
Definition read_top (s : sheet) : canvas := 
  let c := fold_left after (things s) empty_canvas in
  mkCanvas (c_objs c) (c_conns c ++ wires s) (c_array c) (c_msg c) (c_send c) (c_recv c).
Lemma first_starts brk s : sheet_ok s -> exists first, records (patch_file brk s) = first :: map (fun r => join (T " ") (rec_words r)) (sheet_recs s) /\ starts (T "#N canvas") first = true.
Proof.
  intro H. exists (join (T " ") (rec_words canvas_rec)). split; [|reflexivity]. unfold patch_file. rewrite records_of_file; [reflexivity|].
  constructor; [apply rec_fwords, canvas_ok|]. pose proof (sheet_recs_ok s H) as F. revert F. apply Forall_impl. apply rec_fwords.
Qed.
Lemma file_read brk s : sheet_ok s -> read_file (patch_file brk s) = Some (graph_of (finish (read_top s))).
Proof.
  intro H. unfold read_file. destruct (first_starts brk s H) as (first & E & St). rewrite E, St. rewrite map_map.
  assert (L : map (fun r => split_line (join (T " ") (rec_words r))) (sheet_recs s) = map line (sheet_recs s)).
  { apply map_ext_in. intros r I. pose proof (sheet_recs_ok s H) as F. rewrite Forall_forall in F. apply split_rec. auto. }
  rewrite L, map_length.
  assert (R : read_canvas (S (List.length (sheet_recs s))) empty_canvas (map line (sheet_recs s)) = Some (OGraph [] (graph_of (finish (read_top s))), [])).
  { destruct s as [ts ws]. cbn [sheet_recs]. rewrite app_length, map_app, <- Nat.add_1_r, <- Nat.add_assoc.
    apply (steps_things ts ltac:(apply Forall_forall; intros; apply thing_steps) false); [exact H|]. rewrite map_length, <- (app_nil_r (map line _)). apply steps_wires. reflexivity. }
  rewrite R. reflexivity.
Qed.
