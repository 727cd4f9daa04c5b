(** polytouchin, bendin, touchin, pgmin, and the theorems on notein. *)
From Verif Require Import PatchProofs PatchProofs2 PatchProofs3 PatchProofs4 PatchSpec Float32Facts.
From Coq Require Import Lia Reals Lra.
Open Scope Z_scope.

Section Fold.
Variables (E : env) (p : patch) (I : Type) (ev : I -> event) (spec : list I -> list out) (ok : I -> Prop) (Inv : world -> Prop).
Hypothesis spec_nil : spec [] = [].
Hypothesis spec_cons : forall e l, spec (e :: l) = spec [e] ++ spec l.
Hypothesis start : exists w, runs E (flatten p 0) 0 (boot (flatten p 0)) (load_tasks (flatten p 0)) w /\ Inv w /\ sent w = [].
Hypothesis one : forall w e, ok e -> Inv w -> exists w1, plays E (flatten p 0) w [ev e] w1 /\ Inv w1 /\ sent w1 = log (sent w) (spec [e]).
Lemma sends_each l : Forall ok l -> sends E p (map ev l) (spec l).
Proof.
  intros Hok. destruct start as (w0 & Hl & Hi & Hs).
  destruct (simulate E (flatten p 0) unit I ev (fun _ => spec) (fun _ => Inv) (fun _ => Forall ok)) with (s := tt) (l := l) (w := w0)
    as (w & Hp & Hw); [intros; exact spec_nil | | exact Hok | exact Hi |].
  - clear Hok Hl Hi Hs l w0. intros s e l w Hok Hi. destruct (one w e (Forall_inv Hok) Hi) as (w1 & Hp & Hi1 & Hs1).
    exists tt, (spec [e]), w1. split; [exact Hp | split; [exact Hi1 | split; [exact Hs1 | split; [apply spec_cons | exact (Forall_inv_tail Hok)]]]].
  - refine (sends_loaded E p _ _ w0 w Hl Hp _). rewrite Hw, Hs. reflexivity.
Qed.
End Fold.
Lemma notein_spec_cons k e l : notein_spec k (e :: l) = notein_spec k [e] ++ notein_spec k l.
Proof. destruct e as [t [[p v] c]]. cbn [notein_spec app]. rewrite app_nil_r. reflexivity. Qed.
Lemma valuein_spec_cons a k e l : valuein_spec a k (e :: l) = valuein_spec a k [e] ++ valuein_spec a k l.
Proof. destruct e as [t [x c]]. cbn [valuein_spec]. rewrite app_nil_r. reflexivity. Qed.

Lemma notein_sends E K l : 0 <= K <= 2 ^ 24 -> Forall note_ok l ->
  sends E (notein_pd (of_int K)) (map note_event l) (notein_spec K l).
Proof.
  intros HK Hl. apply (sends_each E _ _ note_event (notein_spec K) note_ok (notein_inv K tt)).
  - reflexivity.
  - apply notein_spec_cons.
  - destruct (notein_load E K HK) as [b H]. eexists. split; [exact H | split; [constructor | reflexivity]].
  - intros w e He Hi. exact (notein_event E K w e HK He Hi).
  - exact Hl.
Qed.
Definition value_ok (e : Z * (f32 * Z)) : Prop := match e with (_, (_, c)) => 0 <= c < 2 ^ 24 end.

(** ** polytouchin *)
Definition polytouchin_nodes (K : Z) (b g : bool) (ch : bool) : list prim :=
  unpack3_nodes ++ [PPass] ++ int_nodes (of_int K) b ++ spigot_nodes ch ++ spigot_nodes g ++ spigot_nodes g ++
  [PBinK ADD (of_int 1)] ++ spigot_nodes ch ++ [PBinK EQ fzero; PBin EQ (of_int K); PSeq [CF; CF]; PSeq [CF; CF]; PPass; PPass; PPass;
   PBinK MAX (of_int 1); PPass].
Inductive polytouchin_inv (K : Z) : world -> Prop :=
| polytouchin_i b ch s : polytouchin_inv K (mkWorld (polytouchin_nodes K b (K =? 0) ch) [] s).
Lemma polytouchin_load E K : 0 <= K <= 2 ^ 24 -> let fp := flatten (polytouchin_pd (of_int K)) 0 in
  exists b, runs E fp 0 (boot fp) (load_tasks fp) (mkWorld (polytouchin_nodes K b (K =? 0) false) [] []).
Proof.
  intros HK. cbv zeta. unfold polytouchin_nodes. rewrite <- (int_zero K HK).
  destruct (fltb fzero (of_int K)) eqn:H; [pose proof (int_gt E K HK H) as Hi | pose proof (int_le E K HK H) as Hi];
  (destruct (feqb (of_int K) fzero) eqn:H0; eexists; norm; run ltac:(first [rewrite H | rewrite H0 | rewrite Hi | consts])).
Qed.
Lemma polytouchin_event E K w e :
  let fp := flatten (polytouchin_pd (of_int K)) 0 in
  0 <= K <= 2 ^ 24 -> note_ok e -> polytouchin_inv K w ->
  exists w1, plays E fp w [note_event e] w1 /\ polytouchin_inv K w1 /\ sent w1 = log (sent w) (notein_spec K [e]).
Proof.
  intros fp HK Hc Hi. destruct Hi as [b ch s]. destruct e as [t [[p v] c]]. cbn [note_ok] in Hc.
  destruct (channel_facts K c HK Hc) as (Hadd & Hmax & Heq). unfold fp. clear fp.
  cbn [note_event notein_spec]. unfold on_channel, polytouchin_nodes.
  destruct (channel_cases K c ltac:(lia) ltac:(lia)) as [[H0 H1] | [[H0 H1] | [H0 H1]]]; rewrite H1 in Heq; rewrite H0, H1; clear HK Hc;
  (eexists; split; [apply plays_one; norm; run ltac:(first [rewrite Hadd | rewrite Hmax | rewrite Heq | consts]) |]);
  (split; [rewrite <- H0; exact (polytouchin_i K b _ _) | cbn [sent orb]; rewrite ?log_log, ?log_nil; reflexivity]).
Qed.
Lemma polytouchin_sends E K l : 0 <= K <= 2 ^ 24 -> Forall note_ok l ->
  sends E (polytouchin_pd (of_int K)) (map note_event l) (notein_spec K l).
Proof.
  intros HK Hl. apply (sends_each E _ _ note_event (notein_spec K) note_ok (polytouchin_inv K)).
  - reflexivity.
  - apply notein_spec_cons.
  - destruct (polytouchin_load E K HK) as [b H]. eexists. split; [exact H | split; [constructor | reflexivity]].
  - intros w e He Hi. exact (polytouchin_event E K w e HK He Hi).
  - exact Hl.
Qed.

(** ** bendin *)
Definition bendin_nodes (K : Z) (b g : bool) (ch : bool) : list prim :=
  [PPass] ++ unpack2_nodes ++ [PPass; PPass; PPass; PBinK EQ fzero] ++ int_nodes (of_int K) b ++ spigot_nodes g ++
  [PBinK ADD (of_int 1)] ++ spigot_nodes ch ++ [PBin EQ (of_int K)] ++ spigot_nodes ch ++ [PSeq [CF; CF]; PBinK MAX (of_int 1); PSeq [CF; CF]] ++
  spigot_nodes g.
Inductive bendin_inv (K : Z) : world -> Prop :=
| bendin_i b ch s : bendin_inv K (mkWorld (bendin_nodes K b (K =? 0) ch) [] s).
Lemma bendin_load E K : 0 <= K <= 2 ^ 24 -> let fp := flatten (bendin_pd (of_int K)) 0 in
  exists b, runs E fp 0 (boot fp) (load_tasks fp) (mkWorld (bendin_nodes K b (K =? 0) false) [] []).
Proof.
  intros HK. cbv zeta. unfold bendin_nodes. rewrite <- (int_zero K HK).
  destruct (fltb fzero (of_int K)) eqn:H; [pose proof (int_gt E K HK H) as Hi | pose proof (int_le E K HK H) as Hi];
  (destruct (feqb (of_int K) fzero) eqn:H0; eexists; norm; run ltac:(first [rewrite H | rewrite H0 | rewrite Hi | consts])).
Qed.
Lemma bendin_event E K w e :
  let fp := flatten (bendin_pd (of_int K)) 0 in
  0 <= K <= 2 ^ 24 -> value_ok e -> bendin_inv K w ->
  exists w1, plays E fp w [value_event e] w1 /\ bendin_inv K w1 /\ sent w1 = log (sent w) (valuein_spec false K [e]).
Proof.
  intros fp HK Hc Hi. destruct Hi as [b ch s]. destruct e as [t [x c]]. cbn [value_ok] in Hc.
  destruct (channel_facts K c HK Hc) as (Hadd & Hmax & Heq). unfold fp. clear fp.
  cbn [value_event valuein_spec]. unfold on_channel, bendin_nodes.
  destruct (channel_cases K c ltac:(lia) ltac:(lia)) as [[H0 H1] | [[H0 H1] | [H0 H1]]]; rewrite H1 in Heq; rewrite H0, H1; clear HK Hc;
  (eexists; split; [apply plays_one; norm; run ltac:(first [rewrite Hadd | rewrite Hmax | rewrite Heq | consts]) |]);
  (split; [rewrite <- H0; exact (bendin_i K b _ _) | cbn [sent orb]; rewrite ?log_log, ?log_nil; reflexivity]).
Qed.
Lemma bendin_sends E K l : 0 <= K <= 2 ^ 24 -> Forall value_ok l ->
  sends E (bendin_pd (of_int K)) (map value_event l) (valuein_spec false K l).
Proof.
  intros HK Hl. apply (sends_each E _ _ value_event (valuein_spec false K) value_ok (bendin_inv K)).
  - reflexivity.
  - apply valuein_spec_cons.
  - destruct (bendin_load E K HK) as [b H]. eexists. split; [exact H | split; [constructor | reflexivity]].
  - intros w e He Hi. exact (bendin_event E K w e HK He Hi).
  - exact Hl.
Qed.

(** ** touchin *)
Definition touchin_nodes (K : Z) (b g : bool) (ch : bool) : list prim :=
  [PPass] ++ unpack2_nodes ++ [PPass; PPass; PBinK EQ fzero] ++ int_nodes (of_int K) b ++ spigot_nodes g ++
  [PBinK ADD (of_int 1)] ++ spigot_nodes ch ++ [PBin EQ (of_int K)] ++ spigot_nodes ch ++ [PSeq [CF; CF]; PBinK MAX (of_int 1); PSeq [CF; CF]] ++
  spigot_nodes g ++ [PPass].
Inductive touchin_inv (K : Z) : world -> Prop :=
| touchin_i b ch s : touchin_inv K (mkWorld (touchin_nodes K b (K =? 0) ch) [] s).
Lemma touchin_load E K : 0 <= K <= 2 ^ 24 -> let fp := flatten (touchin_pd (of_int K)) 0 in
  exists b, runs E fp 0 (boot fp) (load_tasks fp) (mkWorld (touchin_nodes K b (K =? 0) false) [] []).
Proof.
  intros HK. cbv zeta. unfold touchin_nodes. rewrite <- (int_zero K HK).
  destruct (fltb fzero (of_int K)) eqn:H; [pose proof (int_gt E K HK H) as Hi | pose proof (int_le E K HK H) as Hi];
  (destruct (feqb (of_int K) fzero) eqn:H0; eexists; norm; run ltac:(first [rewrite H | rewrite H0 | rewrite Hi | consts])).
Qed.
Lemma touchin_event E K w e :
  let fp := flatten (touchin_pd (of_int K)) 0 in
  0 <= K <= 2 ^ 24 -> value_ok e -> touchin_inv K w ->
  exists w1, plays E fp w [value_event e] w1 /\ touchin_inv K w1 /\ sent w1 = log (sent w) (valuein_spec false K [e]).
Proof.
  intros fp HK Hc Hi. destruct Hi as [b ch s]. destruct e as [t [x c]]. cbn [value_ok] in Hc.
  destruct (channel_facts K c HK Hc) as (Hadd & Hmax & Heq). unfold fp. clear fp.
  cbn [value_event valuein_spec]. unfold on_channel, touchin_nodes.
  destruct (channel_cases K c ltac:(lia) ltac:(lia)) as [[H0 H1] | [[H0 H1] | [H0 H1]]]; rewrite H1 in Heq; rewrite H0, H1; clear HK Hc;
  (eexists; split; [apply plays_one; norm; run ltac:(first [rewrite Hadd | rewrite Hmax | rewrite Heq | consts]) |]);
  (split; [rewrite <- H0; exact (touchin_i K b _ _) | cbn [sent orb]; rewrite ?log_log, ?log_nil; reflexivity]).
Qed.
Lemma touchin_sends E K l : 0 <= K <= 2 ^ 24 -> Forall value_ok l ->
  sends E (touchin_pd (of_int K)) (map value_event l) (valuein_spec false K l).
Proof.
  intros HK Hl. apply (sends_each E _ _ value_event (valuein_spec false K) value_ok (touchin_inv K)).
  - reflexivity.
  - apply valuein_spec_cons.
  - destruct (touchin_load E K HK) as [b H]. eexists. split; [exact H | split; [constructor | reflexivity]].
  - intros w e He Hi. exact (touchin_event E K w e HK He Hi).
  - exact Hl.
Qed.

(** ** pgmin *)
Definition pgmin_nodes (K : Z) (b g : bool) (ch : bool) : list prim :=
  [PPass] ++ unpack2_nodes ++ [PPass; PPass; PBinK EQ fzero] ++ int_nodes (of_int K) b ++ spigot_nodes g ++
  [PBinK ADD (of_int 1)] ++ spigot_nodes ch ++ [PBin EQ (of_int K)] ++ spigot_nodes ch ++ [PSeq [CF; CF]; PBinK MAX (of_int 1); PSeq [CF; CF]] ++
  spigot_nodes g ++ [PPass; PBinK ADD (of_int 1)].
Inductive pgmin_inv (K : Z) : world -> Prop :=
| pgmin_i b ch s : pgmin_inv K (mkWorld (pgmin_nodes K b (K =? 0) ch) [] s).
Lemma pgmin_load E K : 0 <= K <= 2 ^ 24 -> let fp := flatten (pgmin_pd (of_int K)) 0 in
  exists b, runs E fp 0 (boot fp) (load_tasks fp) (mkWorld (pgmin_nodes K b (K =? 0) false) [] []).
Proof.
  intros HK. cbv zeta. unfold pgmin_nodes. rewrite <- (int_zero K HK).
  destruct (fltb fzero (of_int K)) eqn:H; [pose proof (int_gt E K HK H) as Hi | pose proof (int_le E K HK H) as Hi];
  (destruct (feqb (of_int K) fzero) eqn:H0; eexists; norm; run ltac:(first [rewrite H | rewrite H0 | rewrite Hi | consts])).
Qed.
Lemma pgmin_event E K w e :
  let fp := flatten (pgmin_pd (of_int K)) 0 in
  0 <= K <= 2 ^ 24 -> value_ok e -> pgmin_inv K w ->
  exists w1, plays E fp w [value_event e] w1 /\ pgmin_inv K w1 /\ sent w1 = log (sent w) (valuein_spec true K [e]).
Proof.
  intros fp HK Hc Hi. destruct Hi as [b ch s]. destruct e as [t [x c]]. cbn [value_ok] in Hc.
  destruct (channel_facts K c HK Hc) as (Hadd & Hmax & Heq). unfold fp. clear fp.
  cbn [value_event valuein_spec]. unfold on_channel, pgmin_nodes.
  destruct (channel_cases K c ltac:(lia) ltac:(lia)) as [[H0 H1] | [[H0 H1] | [H0 H1]]]; rewrite H1 in Heq; rewrite H0, H1; clear HK Hc;
  (eexists; split; [apply plays_one; norm; run ltac:(first [rewrite Hadd | rewrite Hmax | rewrite Heq | consts]) |]);
  (split; [rewrite <- H0; exact (pgmin_i K b _ _) | cbn [sent orb]; rewrite ?log_log, ?log_nil; reflexivity]).
Qed.
Lemma pgmin_sends E K l : 0 <= K <= 2 ^ 24 -> Forall value_ok l ->
  sends E (pgmin_pd (of_int K)) (map value_event l) (valuein_spec true K l).
Proof.
  intros HK Hl. apply (sends_each E _ _ value_event (valuein_spec true K) value_ok (pgmin_inv K)).
  - reflexivity.
  - apply valuein_spec_cons.
  - destruct (pgmin_load E K HK) as [b H]. eexists. split; [exact H | split; [constructor | reflexivity]].
  - intros w e He Hi. exact (pgmin_event E K w e HK He Hi).
  - exact Hl.
Qed.
