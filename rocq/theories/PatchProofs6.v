(** ctlin. *)
From Verif Require Import PatchProofs PatchProofs2 PatchProofs3 PatchProofs4 PatchProofs5 PatchSpec Float32Facts.
From Coq Require Import Lia.
Open Scope Z_scope.

(** [m1], [m2]: the last controller was the wanted one; [h]: the last channel was. *)
Definition ctlin_nodes (n0 c0 : Z) (b1 b2 : bool) (gn gc : bool) (m1 m2 h : bool) (ch : f32) : list prim :=
  [PPass; PPass; PPass; PPass; PPass; PSeq [CA; CA]] ++ int_nodes (of_int n0) b1 ++ int_nodes (of_int c0) b2 ++ unpack3_nodes ++
  [PBinK ADD (of_int 1); PBinK MAX (of_int 1); PBin EQ (of_int n0); PSeq [CF; CF]; PBinK EQ fzero] ++
  spigot_nodes gn ++ spigot_nodes gn ++ spigot_nodes m1 ++ spigot_nodes m2 ++ spigot_nodes (negb gn) ++ [PBinK EQ fzero] ++
  spigot_nodes h ++ spigot_nodes gc ++ spigot_nodes (negb gc) ++
  [PSeq [CF; CF]; PBinK NEQ fzero; PSeq [CF; CF]; PSeq [CA; CA]; PBinK EQ fzero; PBin EQ (of_int c0); PSeq [CF; CF]] ++ spigot_nodes gn ++
  [PVar (EF ch); PPass; PPass; PPass; PSeq [CA]; PSeq [CF; CB; CF]; PSeq [CF; CF; CF; CF]].
Lemma int_facts E z : 0 <= z <= 2 ^ 24 ->
  (z =? 0 = true /\ fltb fzero (of_int z) = false /\ feqb (of_int z) fzero = true /\ unop_value (e_lib E) CEIL (of_int z) = of_int z) \/
  (z =? 0 = false /\ fltb fzero (of_int z) = true /\ feqb (of_int z) fzero = false /\ unop_value (e_lib E) FLOOR (of_int z) = of_int z).
Proof.
  intros Hz. rewrite (int_zero z Hz). pose proof (of_int_fltb 0 z ltac:(lia) ltac:(lia)) as H. change (of_int 0) with fzero in H.
  destruct (Z.eqb_spec z 0) as [-> | N]; [left | right].
  - split; [reflexivity | split; [exact H | split; [reflexivity |]]]. apply int_le; [lia | exact H].
  - assert (L : 0 <? z = true) by (apply Z.ltb_lt; lia). rewrite L in H.
    split; [reflexivity | split; [exact H | split; [reflexivity |]]]. apply int_gt; [lia | exact H].
Qed.
Lemma ctlin_load E n0 c0 : 0 <= n0 <= 2 ^ 24 -> 0 <= c0 <= 2 ^ 24 -> let fp := flatten (ctlin_pd (of_int n0) (of_int c0)) 0 in
  exists b1 b2 m1 m2, runs E fp 0 (boot fp) (load_tasks fp) (mkWorld (ctlin_nodes n0 c0 b1 b2 (n0 =? 0) (c0 =? 0) m1 m2 true (of_int 0)) [] []).
Proof.
  intros Hn Hc. cbv zeta. unfold ctlin_nodes.
  destruct (int_facts E n0 Hn) as [(A & A1 & A2 & A3) | (A & A1 & A2 & A3)];
  destruct (int_facts E c0 Hc) as [(B & B1 & B2 & B3) | (B & B1 & B2 & B3)]; rewrite A, B;
  eexists _, _, _, _; norm; pose proof (eq_refl : feqb (of_int 1) fzero = false) as O1;
  rewrite ?O1; run ltac:(first [rewrite A1 | rewrite B1 | rewrite A2 | rewrite B2 | rewrite A3 | rewrite B3 | consts]).
Qed.
Inductive ctlin_inv (n0 c0 : Z) : world -> Prop :=
| ctlin_i b1 b2 gn gc m1 m2 h ch s : n0 =? 0 = gn -> c0 =? 0 = gc -> (gc = true -> h = true) ->
    ctlin_inv n0 c0 (mkWorld (ctlin_nodes n0 c0 b1 b2 gn gc m1 m2 h ch) [] s).
(** What the theorem assumes of the arguments and of a message: no argument at all, or a controller from 1 on;
    without arguments, no controller 0. *)
Definition ctl_args (n0 c0 : Z) : Prop := 0 <= n0 <= 2 ^ 24 /\ 0 <= c0 <= 2 ^ 24 /\ (n0 = 0 -> c0 = 0).
Definition ctl_ok (n0 : Z) (e : Z * (f32 * Z * Z)) : Prop :=
  match e with (_, (_, n, c)) => 0 <= n < 2 ^ 24 /\ 0 <= c < 2 ^ 24 /\ (n0 = 0 -> n <> 0) end.
Lemma ctlin_event E n0 c0 w e :
  let fp := flatten (ctlin_pd (of_int n0) (of_int c0)) 0 in
  ctl_args n0 c0 -> ctl_ok n0 e -> ctlin_inv n0 c0 w ->
  exists w1, plays E fp w [ctl_event e] w1 /\ ctlin_inv n0 c0 w1 /\ sent w1 = log (sent w) (ctlin_spec n0 c0 [e]).
Proof.
  intros fp (Hn0 & Hc0 & Hargs) Hok Hi. destruct Hi as [b1 b2 gn gc m1 m2 h ch s G1 G2 Hh]. destruct e as [t [[x n] c]]. cbn [ctl_ok] in Hok.
  destruct Hok as (Hn & Hc & Hnz).
  destruct (channel_facts c0 c Hc0 Hc) as (Hadd & Hmax & Hch).
  pose proof (of_int_feqb n n0 ltac:(lia) ltac:(lia)) as Hcc. unfold fp. clear fp.
  cbn [ctl_event ctlin_spec]. unfold ctlin_nodes.
  rewrite G1, G2. destruct gn, gc; destruct (n =? n0) eqn:G3; destruct (c + 1 =? c0) eqn:G4;
    try (exfalso; lia); try rewrite (Hh eq_refl); cbn [negb app];
  (eexists; split; [apply plays_one; norm; run ltac:(first [rewrite Hadd | rewrite Hmax | rewrite Hcc | rewrite Hch | consts]) |]);
  (split; [| cbn [sent]; rewrite ?log_log, ?log_nil; reflexivity]);
  (eapply (ctlin_i n0 c0 b1 b2 _ _ _ _ _ _ _ G1 G2); reflexivity || discriminate).
Qed.
Lemma ctlin_spec_cons n0 c0 e l : ctlin_spec n0 c0 (e :: l) = ctlin_spec n0 c0 [e] ++ ctlin_spec n0 c0 l.
Proof. destruct e as [t [[x n] c]]. cbn [ctlin_spec]. rewrite app_nil_r. reflexivity. Qed.
Lemma ctlin_sends E n0 c0 l : ctl_args n0 c0 -> Forall (ctl_ok n0) l ->
  sends E (ctlin_pd (of_int n0) (of_int c0)) (map ctl_event l) (ctlin_spec n0 c0 l).
Proof.
  intros Ha Hl. apply (sends_each E _ _ ctl_event (ctlin_spec n0 c0) (ctl_ok n0) (ctlin_inv n0 c0)).
  - reflexivity.
  - apply ctlin_spec_cons.
  - destruct Ha as (Hn & Hc & _). destruct (ctlin_load E n0 c0 Hn Hc) as (b1 & b2 & m1 & m2 & H).
    eexists. split; [exact H | split; [| reflexivity]]. econstructor; reflexivity.
  - intros w e He Hi. exact (ctlin_event E n0 c0 w e Ha He Hi).
  - exact Hl.
Qed.
