(** Hidden senders, receivers and message boxes. *)
From Verif Require Import ParseModel ParseSpec ParseProofs ParseProofs2 ParseProofs3 ParseProofs4 ParseProofs5.
From Coq Require Import Lia String ZifyBool.
Local Open Scope list_scope.
Local Open Scope Z_scope.

Definition ext (c c' : canvas) : Prop := exists ho hw, c_objs c' = c_objs c ++ ho /\ c_conns c' = c_conns c ++ hw.
Lemma ext_refl c : ext c c.
Proof. exists [], []. rewrite !app_nil_r. auto. Qed.
Lemma ext_trans a b c : ext a b -> ext b c -> ext a c.
Proof. intros (o & w & A & B) (o' & w' & A' & B'). exists (o ++ o'), (w ++ w'). rewrite A', B', A, B, <- !app_assoc. auto. Qed.
Lemma ext_obj c o : ext c (add_object c o).
Proof. exists [o], []. rewrite app_nil_r. auto. Qed.
Lemma ext_conn c k : ext c (add_conn c k).
Proof. exists [], [k]. rewrite app_nil_r. auto. Qed.
Lemma ext_fold {A} (f : canvas -> A -> canvas) l : (forall c a, ext c (f c a)) -> forall c, ext c (fold_left f l c).
Proof. intro H. induction l as [|a l IH]; intro c; [apply ext_refl|]. cbn. eapply ext_trans; [apply H|apply IH]. Qed.
Lemma ext_remote n c r : ext c (add_remote n c r).
Proof.
  unfold add_remote. destruct (read_box _); [|apply ext_refl]. eapply ext_trans; [|apply ext_conn]. eapply ext_trans; [|apply ext_fold; intros; apply ext_conn].
  eapply ext_trans; apply ext_obj.
Qed.
Lemma ext_send c e : ext c (add_send c e).
Proof. unfold add_send. eapply ext_trans; [apply ext_obj|apply ext_conn]. Qed.
Lemma ext_recv c e : ext c (add_recv c e).
Proof. unfold add_recv. eapply ext_trans; [apply ext_obj|apply ext_conn]. Qed.
Lemma ext_nth c c' k o : ext c c' -> nth_error (c_objs c) k = Some o -> nth_error (c_objs c') k = Some o.
Proof. intros (ho & hw & A & _) H. rewrite A, nth_error_app1; auto. apply nth_error_Some. congruence. Qed.
Lemma ext_in c c' k : ext c c' -> In k (c_conns c) -> In k (c_conns c').
Proof. intros (ho & hw & _ & B) H. rewrite B. apply in_app_iff. auto. Qed.
Lemma ext_msgs l c : ext c (fold_left (fun c e => fold_left (add_remote (fst e)) (snd e) c) l c).
Proof. apply ext_fold. intros. apply ext_fold. intros. apply ext_remote. Qed.
(** Something about an element of the list, made true once, stays true. *)
Lemma fold_in {A} (f : canvas -> A -> canvas) (Q : canvas -> Prop) (P : canvas -> Prop) l a :
  (forall c a, P c -> P (f c a)) -> (forall c a, Q c -> Q (f c a)) -> In a l -> (forall c, P c -> Q (f c a)) -> forall c, P c -> Q (fold_left f l c).
Proof.
  intros HP HQ I HA. induction l as [|x l IH]; [destruct I|]. intros c Pc. cbn. destruct I as [<-|I].
  - assert (G : forall c, Q c -> Q (fold_left f l c)) by (clear -HQ; induction l as [|y l IH]; intros c H; [exact H|]; cbn; auto). apply G. auto.
  - apply IH; auto.
Qed.
Lemma send_links l n r c : In (n, r) l -> (exists k, nth_error (c_objs (fold_left add_send l c)) k = Some (OSend (words r)) /\
  In (Z.of_nat n, 0, Z.of_nat k, 0) (c_conns (fold_left add_send l c))).
Proof.
  intro I. apply (fold_in add_send (fun c => exists k, nth_error (c_objs c) k = Some (OSend (words r)) /\ In (Z.of_nat n, 0, Z.of_nat k, 0) (c_conns c)) (fun _ => True) l (n, r)); auto.
  - intros c0 a (k & A & B). exists k. split; [eapply ext_nth|eapply ext_in]; eauto; apply ext_send.
  - intros c0 _. exists (next_index c0). unfold add_send, next_index. cbn [add_conn add_object c_objs c_conns fst snd]. split.
    + rewrite nth_error_app2, Nat.sub_diag by lia. reflexivity.
    + apply in_app_iff. right. left. reflexivity.
Qed.
Lemma recv_links l n r c : In (n, r) l -> (exists k, nth_error (c_objs (fold_left add_recv l c)) k = Some (OReceive (words r)) /\
  In (Z.of_nat k, 0, Z.of_nat n, 0) (c_conns (fold_left add_recv l c))).
Proof.
  intro I. apply (fold_in add_recv (fun c => exists k, nth_error (c_objs c) k = Some (OReceive (words r)) /\ In (Z.of_nat k, 0, Z.of_nat n, 0) (c_conns c)) (fun _ => True) l (n, r)); auto.
  - intros c0 a (k & A & B). exists k. split; [eapply ext_nth|eapply ext_in]; eauto; apply ext_recv.
  - intros c0 _. exists (next_index c0). unfold add_recv, next_index. cbn [add_conn add_object c_objs c_conns fst snd]. split.
    + rewrite nth_error_app2, Nat.sub_diag by lia. reflexivity.
    + apply in_app_iff. right. left. reflexivity.
Qed.
Lemma indices_in n a o l : In (a, o, n, 0) l -> In a (indices_to n l).
Proof.
  induction l as [|[[[a' o'] b'] i'] l IH]; intro I; [destruct I|]. cbn. destruct I as [E|I].
  - injection E as -> -> -> ->. rewrite !Z.eqb_refl. left. reflexivity.
  - apply IH in I. destruct ((b' =? n) && (i' =? 0)); [right|]; auto.
Qed.
Definition remote_done (a : Z) (r : text) (b : message_box) (c : canvas) : Prop :=
  exists k k', nth_error (c_objs c) k = Some (OMessage b) /\ nth_error (c_objs c) k' = Some (OSend [r]) /\
  In (a, 0, Z.of_nat k, 0) (c_conns c) /\ In (Z.of_nat k, 0, Z.of_nat k', 0) (c_conns c).
Lemma remote_keep a r b c c' : ext c c' -> remote_done a r b c -> remote_done a r b c'.
Proof. intros E (k & k' & A & B & C & D). exists k, k'. repeat split; eauto using ext_nth, ext_in. Qed.
Lemma fold_conns l k c : c_objs (fold_left (fun c a => add_conn c (a, 0, k, 0)) l c) = c_objs c /\
  forall a, In a l -> In (a, 0, k, 0) (c_conns (fold_left (fun c a => add_conn c (a, 0, k, 0)) l c)).
Proof.
  revert c. induction l as [|x l IH]; intro c; [split; [reflexivity|intros a []]|]. cbn [fold_left]. destruct (IH (add_conn c (x, 0, k, 0))) as [A B]. split; [exact A|].
  intros a [->|I]; [|auto]. eapply ext_in; [apply ext_fold; intros; apply ext_conn|]. cbn. apply in_app_iff. right. left. reflexivity.
Qed.
Lemma remote_made n a o r l b c : In (a, o, Z.of_nat n, 0) (c_conns c) -> read_box (join (T " ") l) = Some b -> remote_done a r b (add_remote n c (r, l)).
Proof.
  intros I B. unfold add_remote. cbn [fst snd]. rewrite B. set (k := Z.of_nat (next_index c)). set (c1 := add_object (add_object c (OMessage b)) (OSend [r])).
  destruct (fold_conns (indices_to (Z.of_nat n) (c_conns c)) k c1) as [O C]. exists (next_index c), (S (next_index c)).
  cbn [add_conn c_objs c_conns]. rewrite O. unfold c1. cbn [add_object c_objs]. unfold next_index in *. repeat split.
  - rewrite nth_error_app1 by (rewrite app_length; cbn; lia). rewrite nth_error_app2, Nat.sub_diag by lia. reflexivity.
  - rewrite nth_error_app2 by (rewrite app_length; cbn; lia). rewrite app_length. cbn [List.length]. replace (_ - _)%nat with 0%nat by lia. reflexivity.
  - apply in_app_iff. left. apply C. eapply indices_in. eauto.
  - apply in_app_iff. right. left. unfold k. repeat f_equal. lia.
Qed.
Lemma msg_links l n rs r m b a o c : In (n, rs) l -> In (r, m) rs -> In (a, o, Z.of_nat n, 0) (c_conns c) -> read_box (join (T " ") m) = Some b ->
  remote_done a r b (fold_left (fun c e => fold_left (add_remote (fst e)) (snd e) c) l c).
Proof.
  intros I J K B. apply (fold_in (fun c e => fold_left (add_remote (fst e)) (snd e) c) (remote_done a r b) (fun c => In (a, o, Z.of_nat n, 0) (c_conns c)) l (n, rs)); auto.
  - intros c0 e H. eapply ext_in; [|exact H]. apply ext_fold. intros; apply ext_remote.
  - intros c0 e H. eapply remote_keep; [|exact H]. apply ext_fold. intros; apply ext_remote.
  - intros c0 H. cbn [fst snd]. apply (fold_in (add_remote n) (remote_done a r b) (fun c => In (a, o, Z.of_nat n, 0) (c_conns c)) rs (r, m)); auto.
    + intros c1 e G. eapply ext_in; [|exact G]. apply ext_remote.
    + intros c1 e G. eapply remote_keep; [|exact G]. apply ext_remote.
    + intros c1 G. eapply remote_made; eauto.
Qed.
(** ** What is collected at the top *)
Lemma collected ts : forall c, next_index (fold_left after ts c) = (next_index c + List.length ts)%nat /\
  (forall n t, nth_error ts n = Some t -> incl (remotes (next_index c + n) t) (c_msg (fold_left after ts c)) /\
    incl (sends (next_index c + n) t) (c_send (fold_left after ts c)) /\ incl (recvs (next_index c + n) t) (c_recv (fold_left after ts c))) /\
  incl (c_msg c) (c_msg (fold_left after ts c)) /\ incl (c_send c) (c_send (fold_left after ts c)) /\ incl (c_recv c) (c_recv (fold_left after ts c)).
Proof.
  induction ts as [|t ts IH]; intro c.
  - cbn. split; [lia|]. split; [intros [|n] t H; discriminate|]. repeat split; apply incl_refl.
  - cbn [fold_left]. destruct (IH (after c t)) as (A & B & M & S & R).
    assert (N : next_index (after c t) = Datatypes.S (next_index c)) by (unfold next_index, after; cbn; rewrite app_length; cbn; lia).
    cbn [after c_msg c_send c_recv] in M, S, R. split; [rewrite A, N; cbn; lia|]. split.
    + intros [|n] u H; cbn in H.
      * injection H as ->. rewrite Nat.add_0_r. repeat split.
        -- eapply incl_tran; [|exact M]. apply incl_appr, incl_refl.
        -- eapply incl_tran; [|exact S]. apply incl_appr, incl_refl.
        -- eapply incl_tran; [|exact R]. apply incl_appr, incl_refl.
      * replace (next_index c + Datatypes.S n)%nat with (next_index (after c t) + n)%nat by lia. apply B. auto.
    + repeat split; (eapply incl_tran; [|eassumption]; apply incl_appl, incl_refl).
Qed.
Lemma quiet_collect ts : Forall quiet ts -> forall c, Forall (fun e => snd e = []) (c_msg c) -> c_send c = [] -> c_recv c = [] ->
  Forall (fun e => snd e = []) (c_msg (fold_left after ts c)) /\ c_send (fold_left after ts c) = [] /\ c_recv (fold_left after ts c) = [].
Proof.
  induction 1 as [|t ts Q _ IH]; intros c M S R; [auto|]. cbn [fold_left]. apply IH; cbn [after c_msg c_send c_recv].
  - apply Forall_app. split; auto. destruct t; cbn; try constructor; auto. cbn in Q. rewrite Q. reflexivity.
  - rewrite S. destruct t; cbn; auto. cbn in Q. destruct (gui_args ws) as [[i j]|]; auto. destruct Q as [Qi Qj]. rewrite Qi. rewrite text_eqb_refl. reflexivity.
  - rewrite R. destruct t; cbn; auto. cbn in Q. destruct (gui_args ws) as [[i j]|]; auto. destruct Q as [Qi Qj]. rewrite Qj. rewrite text_eqb_refl. reflexivity.
Qed.
Lemma read_top_objs s : c_objs (read_top s) = map object_of (things s) /\ c_conns (read_top s) = wires s.
Proof.
  unfold read_top. cbn [c_objs c_conns]. destruct (after_all (things s) empty_canvas) as (A & B & _). rewrite A, B. auto.
Qed.
Theorem patch_read brk s : sheet_ok s -> exists hidden hw, read_file (patch_file brk s) = Some (mkGraph (map object_of (things s) ++ hidden) (wires s ++ hw)) /\
  (Forall quiet (things s) -> hidden = [] /\ hw = []).
Proof.
  intro H. rewrite file_read by auto. destruct (read_top_objs s) as [O W].
  assert (E : ext (read_top s) (finish (read_top s))).
  { unfold finish. eapply ext_trans; [apply (ext_msgs (c_msg (read_top s)))|]. eapply ext_trans; [apply (ext_fold add_send); apply ext_send|]. apply (ext_fold add_recv). apply ext_recv. }
  destruct E as (ho & hw & A & B). rewrite O in A. rewrite W in B. exists ho, hw. unfold graph_of. rewrite A, B. split; [reflexivity|].
  intro Q. destruct (quiet_collect _ Q empty_canvas (Forall_nil _) eq_refl eq_refl) as (M & S & R).
  assert (F : finish (read_top s) = read_top s).
  { unfold finish. replace (c_send (read_top s)) with (@nil (nat * text)) by (symmetry; exact S). replace (c_recv (read_top s)) with (@nil (nat * text)) by (symmetry; exact R). cbn [fold_left].
    change (c_msg (read_top s)) with (c_msg (fold_left after (things s) empty_canvas)). revert M. generalize (c_msg (fold_left after (things s) empty_canvas)). clear.
    intros l F. generalize (read_top s). induction F as [|e l E _ IH]; intro c; [reflexivity|]. cbn [fold_left]. rewrite E. cbn [fold_left]. apply IH. }
  rewrite F in A, B. rewrite O in A. rewrite W in B. split.
  - apply (f_equal (@List.length _)) in A. rewrite app_length in A. destruct ho; [reflexivity|cbn in A; lia].
  - apply (f_equal (@List.length _)) in B. rewrite app_length in B. destruct hw; [reflexivity|cbn in B; lia].
Qed.
(** ** Names *)
Lemma words_name r : word_ok r -> words r = [r].
Proof.
  intro H. apply word_solid in H as [N S]. unfold words. rewrite words_solid by auto. destruct r; [congruence|reflexivity].
Qed.
Lemma name_held r : name_ok r -> held r = r.
Proof.
  intros [[_ W] D]. apply held_id. intros c I. destruct (W c I) as (_ & A & B & C). repeat split; auto. intros ->. auto.
Qed.
Theorem gui_send_linked brk s g n x y ws w i j r : sheet_ok s -> read_file (patch_file brk s) = Some g ->
  nth_error (things s) n = Some (Obj x y ws w) -> gui_args ws = Some (i, j) -> nth_error ws i = Some r -> r <> T "empty" -> name_ok r -> linked_send g n r.
Proof.
  intros H G N A I E K. rewrite file_read in G by auto. injection G as <-. destruct (collected (things s) empty_canvas) as (_ & C & _).
  destruct (C n _ N) as (_ & S & _). cbn [sends] in S. rewrite A, I, text_eqb_neq in S by auto. change (next_index empty_canvas + n)%nat with n in S. rewrite name_held in S by auto.
  specialize (S (n, r) ltac:(left; auto)). unfold linked_send. unfold finish. cbn [graph_of g_objs g_conns].
  set (c1 := fold_left _ (c_msg (read_top s)) (read_top s)).
  destruct (send_links (c_send (read_top s)) n r c1 S) as (k & P & Q). exists k. rewrite words_name in P by apply K.
  split; [eapply ext_nth; [|exact P]|eapply ext_in; [|exact Q]]; apply ext_fold; intros; apply ext_recv.
Qed.
Theorem gui_recv_linked brk s g n x y ws w i j r : sheet_ok s -> read_file (patch_file brk s) = Some g ->
  nth_error (things s) n = Some (Obj x y ws w) -> gui_args ws = Some (i, j) -> nth_error ws j = Some r -> r <> T "empty" -> name_ok r -> linked_receive g n r.
Proof.
  intros H G N A I E K. rewrite file_read in G by auto. injection G as <-. destruct (collected (things s) empty_canvas) as (_ & C & _).
  destruct (C n _ N) as (_ & _ & S). cbn [recvs] in S. rewrite A, I, text_eqb_neq in S by auto. change (next_index empty_canvas + n)%nat with n in S. rewrite name_held in S by auto.
  specialize (S (n, r) ltac:(left; auto)). unfold linked_receive. unfold finish. cbn [graph_of g_objs g_conns].
  destruct (recv_links (c_recv (read_top s)) n r (fold_left add_send (c_send (read_top s)) (fold_left (fun c e => fold_left (add_remote (fst e)) (snd e) c) (c_msg (read_top s)) (read_top s))) S) as (k & P & Q).
  exists k. rewrite words_name in P by apply K. auto.
Qed.
Theorem remote_linked brk s g n x y local remote r ms a : sheet_ok s -> read_file (patch_file brk s) = Some g ->
  nth_error (things s) n = Some (Msg x y local remote) -> In (r, ms) remote -> In (a, 0, Z.of_nat n, 0) (wires s) -> linked_remote g a 0 r ms.
Proof.
  intros H G N I W. assert (M : messages_ok ms).
  { pose proof (proj1 (Forall_forall _ _) H _ (nth_error_In _ _ N)) as (_ & _ & _ & R & _). rewrite Forall_forall in R. apply (R _ I). }
  rewrite file_read in G by auto. injection G as <-. destruct (collected (things s) empty_canvas) as (_ & C & _).
  destruct (C n _ N) as (S & _). cbn [remotes] in S. change (next_index empty_canvas + n)%nat with n in S.
  specialize (S (n, map expand remote) ltac:(left; auto)).
  assert (J : In (r, commas (T "\,") ms) (map expand remote)) by (apply in_map_iff; exists (r, ms); auto).
  destruct (read_top_objs s) as [_ Wr]. assert (W' : In (a, 0, Z.of_nat n, 0) (c_conns (read_top s))) by (rewrite Wr; auto).
  pose proof (msg_links _ n _ r _ (mkBox ms []) a 0 (read_top s) S J W' (box_read_again ms M)) as D.
  assert (E : remote_done a r (mkBox ms []) (finish (read_top s))).
  { eapply remote_keep; [|exact D]. unfold finish. eapply ext_trans; [apply (ext_fold add_send); apply ext_send|]. apply (ext_fold add_recv). apply ext_recv. }
  exact E.
Qed.
