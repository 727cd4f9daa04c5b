(** One fma_replacement step. *)
From Verif Require Import GraphModel GraphSpec RewriteModel RewriteSpec RewriteProofs RewriteProofs2.
Require Import ZifyBool.

Lemma filter_map {X Y} (p : Y -> bool) (h : X -> Y) l : filter p (map h l) = map h (filter (fun x => p (h x)) l).
Proof. induction l as [ | x l IH]; [reflexivity | ]. cbn [map filter]. destruct (p (h x)); cbn [map]; now rewrite IH. Qed.
Lemma filter_and {X} (p q : X -> bool) l : filter p (filter q l) = filter (fun x => q x && p x) l.
Proof. induction l as [ | x l IH]; [reflexivity | ]. cbn [filter]. destruct (q x); cbn [filter andb]; [destruct (p x) | ]; now rewrite IH. Qed.
Lemma map_one {X Y} (h : X -> Y) l : length l <= 1 -> forall x, In x l -> map h l = [h x].
Proof. destruct l as [ | a [ | b l]]; cbn [length]; intros H x; [intros [] | intros [-> | []]; reflexivity | lia]. Qed.
Lemma in_len1 {X} (l : list X) x y : length l <= 1 -> In x l -> In y l -> x = y.
Proof. destruct l as [ | a [ | b l]]; cbn [length]; intros H; [intros [] | intros [-> | []] [-> | []]; reflexivity | lia]. Qed.

Section Step.
Context (G o : nat) (w : work) (root depth : nat) (level rank : nat -> nat) (a i : nat) (t : op).
Let g := w.(pt).
Let n := w.(nxt).
Context (Hfr : fresh_from g n) (WF : well_formed g root depth level rank) (AR : arithmetic w) (Hin : inside g o G).
Context (HM : fma_match w o = Some (a, i, t)).
Let w' := replace_fma G o w.
Let g' := w'.(pt).

(** What a match means *)
Lemma match_facts :
  w.(ty) o = Mul /\ (w.(ty) a = Add /\ t = Fma \/ w.(ty) a = Sub /\ i = 0 /\ t = Fms) /\
  (exists c0, at_outlet g o 0 = [c0] /\ c_to c0 = a /\ c_in c0 = i) /\
  length (at_inlet g o 0) = 1 /\ length (at_inlet g o 1) = 1 /\ length (at_inlet g a 0) = 1 /\ length (at_inlet g a 1) = 1 /\
  at_outlet g a 0 <> [].
Proof.
  unfold fma_match in HM. fold g in HM.
  destruct (op_eqb (ty w o) Mul) eqn:E1; [ | discriminate]. cbn [andb] in HM.
  destruct (Nat.eqb (length (at_inlet g o 0)) 1) eqn:E2; [ | discriminate]. cbn [andb] in HM.
  destruct (Nat.eqb (length (at_inlet g o 1)) 1) eqn:E3; [ | discriminate].
  destruct (at_outlet g o 0) as [ | c0 [ | ]] eqn:E4; try discriminate.
  destruct ((op_eqb (ty w (c_to c0)) Add || op_eqb (ty w (c_to c0)) Sub && Nat.eqb (c_in c0) 0)) eqn:E5; [ | discriminate]. cbn [andb] in HM.
  destruct (Nat.eqb (length (at_inlet g (c_to c0) 0)) 1) eqn:E6; [ | discriminate]. cbn [andb] in HM.
  destruct (Nat.eqb (length (at_inlet g (c_to c0) 1)) 1) eqn:E7; [ | discriminate]. cbn [andb] in HM.
  destruct (negb (Nat.eqb (length (at_outlet g (c_to c0) 0)) 0)) eqn:E8; [ | discriminate]. 
  injection HM as <- <- <-. apply Nat.eqb_eq in E2, E3, E6, E7. apply negb_true_iff, Nat.eqb_neq in E8.
  split; [destruct (ty w o); now try discriminate | ]. split.
  - destruct (ty w (c_to c0)) eqn:E9; try discriminate; [now left | right]. cbn in E5. apply Nat.eqb_eq in E5. auto.
  - split; [exists c0; auto | ]. repeat split; auto. intros F. apply E8. now rewrite F.
Qed.
Lemma ty_o : w.(ty) o = Mul. Proof. apply match_facts. Qed.
Lemma ty_a : w.(ty) a = Add \/ w.(ty) a = Sub. Proof. destruct match_facts as (_ & [[H _] | [H _]] & _); auto. Qed.
Lemma kind_o : kind_of g o = Leaf true [Some false; Some false] [Some false] None.
Proof. pose proof (ar_kind _ AR o) as H. rewrite ty_o in H. exact H. Qed.
Lemma in_at_outlet c x e : In c (at_outlet g x e) <-> In c (conns g) /\ c_from c = x /\ c_out c = e.
Proof. unfold at_outlet. rewrite filter_In, andb_true_iff, !Nat.eqb_eq. tauto. Qed.
Lemma in_at_inlet c x e : In c (at_inlet g x e) <-> In c (conns g) /\ c_to c = x /\ c_in c = e.
Proof. unfold at_inlet. rewrite filter_In, andb_true_iff, !Nat.eqb_eq. tauto. Qed.
Lemma the_conn : exists c0, In c0 (conns g) /\ c_from c0 = o /\ c_out c0 = 0 /\ c_to c0 = a /\ c_in c0 = i /\ forall c, In c (conns g) -> c_from c = o -> c = c0.
Proof.
  destruct match_facts as (_ & _ & (c0 & E & Ea & Ei) & _). exists c0.
  assert (H : In c0 (at_outlet g o 0)) by (rewrite E; now left). apply in_at_outlet in H. destruct H as (H1 & H2 & H3). repeat split; auto.
  intros c Hc Ec. assert (Ho : c_out c = 0).
  { destruct (wf_conn _ _ _ _ _ WF c Hc) as (_ & _ & H). rewrite Ec in H. unfold num_outlets in H. rewrite kind_o in H. cbn in H. lia. }
  assert (H : In c (at_outlet g o 0)) by (apply in_at_outlet; auto). rewrite E in H. destruct H as [-> | []]. reflexivity.
Qed.
Lemma kind_a : exists d, kind_of g a = Leaf true [Some false; Some false] [Some false] d /\ d = None.
Proof.
  destruct match_facts as (_ & _ & _ & _ & _ & _ & _ & NE). destruct (at_outlet g a 0) as [ | c l] eqn:E; [congruence | ].
  assert (H : In c (at_outlet g a 0)) by (rewrite E; now left). apply in_at_outlet in H. destruct H as (H1 & H2 & H3).
  pose proof (ar_kind _ AR a) as K. assert (Hs : c_sig c = true).
  { apply (ar_conn _ AR c H1). left. rewrite H2. destruct ty_a as [-> | ->]; discriminate. }
  pose proof (wf_source _ _ _ _ _ WF c H1 Hs) as S. rewrite H2 in S. fold g in K.
  destruct ty_a as [E2 | E2]; rewrite E2 in K; [destruct K as [d K] | exists None; auto].
  rewrite K in S. destruct S as (_ & -> & _). exists None. auto.
Qed.
Lemma kind_a' : kind_of g a = Leaf true [Some false; Some false] [Some false] None.
Proof. destruct kind_a as (d & H & ->). exact H. Qed.
Lemma i_lt : i < 2.
Proof.
  destruct the_conn as (c0 & H1 & _ & _ & H4 & H5 & _). destruct (wf_conn _ _ _ _ _ WF c0 H1) as (_ & H & _).
  rewrite H4, H5 in H. unfold num_inlets in H. rewrite kind_a' in H. exact H.
Qed.
Lemma o_ne_a : o <> a.
Proof.
  destruct the_conn as (c0 & H1 & H2 & _ & H4 & _). pose proof (wf_rank _ _ _ _ _ WF c0 H1) as H. rewrite H2, H4 in H. intros E. rewrite E in H. lia.
Qed.
Lemma rank_oa : rank o < rank a.
Proof. destruct the_conn as (c0 & H1 & H2 & _ & H4 & _). pose proof (wf_rank _ _ _ _ _ WF c0 H1) as H. now rewrite H2, H4 in H. Qed.
Lemma lt_o : o < n. Proof. destruct the_conn as (c0 & H1 & H2 & _). rewrite <- H2. now apply (fr_conn _ _ Hfr). Qed.
Lemma lt_a : a < n. Proof. destruct the_conn as (c0 & H1 & _ & _ & H2 & _). rewrite <- H2. now apply (fr_conn _ _ Hfr). Qed.
Lemma in_G_a : inside g a G.
Proof.
  destruct the_conn as (c0 & H1 & H2 & _ & H3 & _). destruct (wf_conn _ _ _ _ _ WF c0 H1) as ((K & A & B) & _).
  rewrite H2 in A. rewrite H3 in B. now rewrite <- (wf_parent _ _ _ _ _ WF _ _ _ A Hin).
Qed.
Lemma sig_in c : In c (conns g) -> c_to c = o \/ c_to c = a \/ c_from c = o \/ c_from c = a -> c_sig c = true.
Proof.
  intros H E. apply (ar_conn _ AR c H). pose proof ty_o as T1. pose proof ty_a as T2.
  destruct E as [-> | [-> | [-> | ->]]]; rewrite ?T1; [right | right | left | left]; try discriminate; destruct T2 as [-> | ->]; discriminate.
Qed.
(** The three inputs *)
Lemma input x e : length (at_inlet g x e) = 1 -> (forall c, In c (at_inlet g x e) -> c_sig c = true) ->
  exists p, In p (conns g) /\ c_to p = x /\ c_in p = e /\ c_sig p = true /\ filter (hits x e) (conns g) = [p].
Proof.
  intros L S. destruct (at_inlet g x e) as [ | p [ | ]] eqn:E; try discriminate. exists p.
  assert (H : In p (at_inlet g x e)) by (rewrite E; now left). apply in_at_inlet in H. destruct H as (H1 & H2 & H3).
  repeat split; auto; [apply S; now left | ]. rewrite <- signals_at, E. unfold signals. cbn [filter]. now rewrite (S p (or_introl eq_refl)).
Qed.
Lemma inputs : exists p0 p1 q c0,
  filter (hits o 0) (conns g) = [p0] /\ filter (hits o 1) (conns g) = [p1] /\ filter (hits a (1 - i)) (conns g) = [q] /\
  filter (hits a i) (conns g) = [c0] /\ c_from c0 = o /\ c_out c0 = 0 /\
  (forall p, p = p0 \/ p = p1 \/ p = q -> In p (conns g) /\ c_from p <> o /\ c_from p <> a /\ c_sig p = true).
Proof.
  destruct match_facts as (_ & _ & _ & L1 & L2 & L3 & L4 & _). pose proof i_lt as Hi.
  assert (So : forall e c, In c (at_inlet g o e) -> c_sig c = true).
  { intros e c H. apply in_at_inlet in H. apply sig_in; tauto. }
  assert (Sa : forall e c, In c (at_inlet g a e) -> c_sig c = true).
  { intros e c H. apply in_at_inlet in H. apply sig_in; tauto. }
  assert (L5 : length (at_inlet g a (1 - i)) = 1) by (destruct i as [ | [ | ]]; [exact L4 | exact L3 | lia]).
  assert (L6 : length (at_inlet g a i) = 1) by (destruct i as [ | [ | ]]; [exact L3 | exact L4 | lia]).
  destruct (input o 0 L1 (So 0)) as (p0 & A1 & A2 & A3 & A4 & A5). destruct (input o 1 L2 (So 1)) as (p1 & B1 & B2 & B3 & B4 & B5).
  destruct (input a (1 - i) L5 (Sa _)) as (q & C1 & C2 & C3 & C4 & C5). destruct (input a i L6 (Sa _)) as (c1 & D1 & D2 & D3 & D4 & D5).
  destruct the_conn as (c0 & E1 & E2 & E3 & E4 & E5 & E6). pose proof o_ne_a as Hoa. pose proof rank_oa as Hr.
  exists p0, p1, q, c0. assert (c1 = c0) as ->.
  { assert (H : In c0 (filter (hits a i) (conns g))). { apply filter_In. split; [exact E1 | ]. apply hits_iff. repeat split; auto. apply sig_in; auto. }
    rewrite D5 in H. destruct H as [-> | []]. reflexivity. }
  repeat split; auto.
  - destruct H as [-> | [-> | ->]]; auto.
  - intros F. destruct H as [-> | [-> | ->]].
    + rewrite (E6 p0 A1 F) in A2. congruence.
    + rewrite (E6 p1 B1 F) in B2. congruence.
    + rewrite (E6 q C1 F) in C3. rewrite C3 in E5. lia.
  - intros F. destruct H as [-> | [-> | ->]].
    + pose proof (wf_rank _ _ _ _ _ WF p0 A1) as R. rewrite F, A2 in R. lia.
    + pose proof (wf_rank _ _ _ _ _ WF p1 B1) as R. rewrite F, B2 in R. lia.
    + pose proof (wf_rank _ _ _ _ _ WF q C1) as R. rewrite F, C2 in R. lia.
  - destruct H as [-> | [-> | ->]]; auto.
Qed.

(** ** The new patch *)
Let fi := fma_inputs o a i n.
Let keep c := negb (Nat.eqb (c_from c) o || Nat.eqb (c_to c) o || Nat.eqb (c_from c) a || Nat.eqb (c_to c) a).
Let froma c := Nat.eqb (c_from c) a && Nat.eqb (c_out c) 0.
Lemma fma_eq : w' = {| pt := {| kind_of := fun x =>
                    if Nat.eqb x n then Leaf true [Some false; Some false; Some false] [Some false] None
                    else if Nat.eqb x o || Nat.eqb x a then Outlet
                    else if Nat.eqb x G then match g.(kind_of) G with
                                             | Graph objs il ol => Graph (filter (fun y => negb (Nat.eqb y o || Nat.eqb y a)) objs ++ [n]) il ol
                                             | k => k end
                    else g.(kind_of) x;
                  conns := filter keep (map fi (conns g) ++ map (fun c => refrom c n) (filter froma (map fi (conns g)))) |};
         ty := fun x => if Nat.eqb x n then t else if Nat.eqb x o || Nat.eqb x a then Other else w.(ty) x;
         nxt := S n |}.
Proof. unfold w', replace_fma. rewrite HM. reflexivity. Qed.
Lemma fi_cases c : In c (conns g) ->
  (c_to c = o /\ fi c = retarget c (n, c_in c) /\ c_in c <= 1) \/ (c_to c = a /\ c_in c = 1 - i /\ fi c = retarget c (n, 2)) \/
  (c_to c = a /\ c_in c = i /\ fi c = c) \/ (c_to c <> o /\ c_to c <> a /\ fi c = c).
Proof.
  intros H. unfold fi, fma_inputs. pose proof i_lt as Hi. destruct (wf_conn _ _ _ _ _ WF c H) as (_ & Hl & _). pose proof o_ne_a as Hoa.
  destruct (Nat.eqb_spec (c_to c) o) as [E | E]; cbn [andb].
  - rewrite E in Hl. unfold num_inlets in Hl. rewrite kind_o in Hl. cbn in Hl.
    replace (Nat.leb (c_in c) 1) with true by lia. left. repeat split; auto. lia.
  - destruct (Nat.eqb_spec (c_to c) a) as [E2 | E2]; cbn [andb].
    + rewrite E2 in Hl. unfold num_inlets in Hl. rewrite kind_a' in Hl. cbn in Hl.
      destruct (Nat.eqb_spec (c_in c) (1 - i)) as [E3 | E3]; [right; left; auto | right; right; left]. repeat split; auto. lia.
    + right; right; right. auto.
Qed.
Lemma fi_same c : c_from (fi c) = c_from c /\ c_out (fi c) = c_out c /\ c_sig (fi c) = c_sig c.
Proof. unfold fi, fma_inputs. destruct (_ && _); [ | destruct (_ && _)]; auto. Qed.
(** A connection of the new patch, of inlet [e] of [x]: it comes from... *)
Lemma new_filter x e : filter (hits x e) (conns g') =
  map fi (filter (fun c => hits x e (fi c) && keep (fi c)) (conns g)) ++
  map (fun c => refrom (fi c) n) (filter (fun c => hits x e (fi c) && (froma c && keep (refrom (fi c) n))) (conns g)).
Proof.
  unfold g'. rewrite fma_eq. cbn [pt conns]. rewrite !filter_app. f_equal.
  - rewrite filter_and, filter_map. f_equal. apply filter_ext. intros c. apply andb_comm.
  - rewrite (filter_map froma), map_map, filter_and, filter_map, filter_and. f_equal.
    apply filter_ext. intros c.
    assert (froma (fi c) = froma c) as ->. { unfold froma. destruct (fi_same c) as (-> & -> & _). reflexivity. }
    assert (hits x e (refrom (fi c) n) = hits x e (fi c)) as -> by reflexivity.
    destruct (froma c), (keep (refrom (fi c) n)), (hits x e (fi c)); reflexivity.
Qed.
Lemma hits_old x e c : In c (conns g) -> x < n -> x <> o -> x <> a -> hits x e (fi c) = hits x e c.
Proof.
  intros Hc Hx Ho Ha. destruct (fi_cases c Hc) as [(E & -> & _) | [(E & _ & ->) | [(_ & _ & ->) | (_ & _ & ->)]]]; try reflexivity;
    unfold hits, retarget; cbn [c_to c_in c_sig fst snd]; replace (Nat.eqb n x) with false by lia; replace (Nat.eqb (c_to c) x) with false by lia;
    cbn [andb]; rewrite !andb_false_r; reflexivity.
Qed.
Definition reroute c := if Nat.eqb (c_from c) a then refrom c n else c.
Lemma at_old x e : x < n -> x <> o -> x <> a -> filter (hits x e) (conns g') = map reroute (filter (hits x e) (conns g)).
Proof.
  intros Hx Ho Ha. rewrite new_filter. pose proof lt_o. pose proof lt_a.
  assert (Hkeep : forall c, In c (conns g) -> hits x e c = true -> fi c = c /\ keep c = negb (Nat.eqb (c_from c) a) /\
     froma c = Nat.eqb (c_from c) a /\ keep (refrom c n) = true).
  { intros c Hc Hh. apply hits_iff in Hh. destruct Hh as (Hs & Et & Ei). destruct the_conn as (c0 & _ & _ & _ & H4 & _ & H6).
    assert (c_from c <> o). { intros F. rewrite (H6 c Hc F) in Et. congruence. }
    assert (Ef : fi c = c). { destruct (fi_cases c Hc) as [(E & _) | [(E & _) | [(E & _) | (_ & _ & E)]]]; auto; congruence. }
    split; [exact Ef | ]. unfold keep, froma, refrom. cbn [c_from c_to]. split; [ | split].
    - replace (Nat.eqb (c_from c) o) with false by lia. replace (Nat.eqb (c_to c) o) with false by lia. replace (Nat.eqb (c_to c) a) with false by lia.
      destruct (Nat.eqb (c_from c) a); reflexivity.
    - destruct (Nat.eqb_spec (c_from c) a) as [E | ]; [ | reflexivity]. cbn [andb]. apply Nat.eqb_eq.
      destruct (wf_conn _ _ _ _ _ WF c Hc) as (_ & _ & Hl). rewrite E in Hl. unfold num_outlets in Hl. rewrite kind_a' in Hl. cbn in Hl. lia.
    - rewrite Et. lia. }
  assert (E1 : filter (fun c => hits x e (fi c) && keep (fi c)) (conns g) = filter (fun c => negb (Nat.eqb (c_from c) a)) (filter (hits x e) (conns g))).
  { rewrite filter_and. apply filter_ext_in. intros c Hc. rewrite hits_old by auto. destruct (hits x e c) eqn:E; [ | reflexivity]. cbn [andb].
    destruct (Hkeep c Hc E) as (-> & -> & _). reflexivity. }
  assert (E2 : filter (fun c => hits x e (fi c) && (froma c && keep (refrom (fi c) n))) (conns g) = filter (fun c => Nat.eqb (c_from c) a) (filter (hits x e) (conns g))).
  { rewrite filter_and. apply filter_ext_in. intros c Hc. rewrite hits_old by auto. destruct (hits x e c) eqn:E; [ | reflexivity]. cbn [andb].
    destruct (Hkeep c Hc E) as (-> & _ & -> & ->). apply andb_true_r. }
  rewrite E1, E2. pose proof (wf_single _ _ _ _ _ WF x e) as L. rewrite signals_at in L.
  destruct (filter (hits x e) (conns g)) as [ | c [ | ]] eqn:EF; cbn [length] in L; [reflexivity | | lia].
  assert (Hc : In c (filter (hits x e) (conns g))) by (rewrite EF; now left). apply filter_In in Hc. destruct Hc as [Hc Hh].
  destruct (Hkeep c Hc Hh) as (Ef & _). cbn [filter map]. unfold reroute. destruct (Nat.eqb (c_from c) a); cbn [negb map app]; now rewrite Ef.
Qed.
Lemma at_gone x e : x = o \/ x = a -> filter (hits x e) (conns g') = [].
Proof.
  intros Hx. apply filter_none. intros c Hc. unfold g' in Hc. rewrite fma_eq in Hc. cbn [pt conns] in Hc. apply filter_In in Hc. destruct Hc as [_ Hk].
  apply not_true_iff_false. intros F. apply hits_iff in F. unfold keep in Hk. destruct F as (_ & F & _). lia.
Qed.
Lemma in_new c : In c (conns g') ->
  exists c0, In c0 (conns g) /\ (c = fi c0 /\ c_from c0 <> o /\ c_from c0 <> a \/ c = refrom c0 n /\ c_from c0 = a /\ c_out c0 = 0 /\ fi c0 = c0) /\
    c_to c0 <> o \/ In c0 (conns g) /\ c_to c0 = o /\ c = fi c0 /\ c_from c0 <> o /\ c_from c0 <> a.
Proof.
  intros H. unfold g' in H. rewrite fma_eq in H. cbn [pt conns] in H. apply filter_In in H. destruct H as [H Hk]. apply in_app_or in H. destruct H as [H | H].
  - apply in_map_iff in H. destruct H as (c0 & <- & H0). exists c0. destruct (fi_same c0) as (E & _).
    assert (c_from c0 <> o /\ c_from c0 <> a). { unfold keep in Hk. rewrite E in Hk. lia. }
    destruct (Nat.eq_dec (c_to c0) o); [right | left]; tauto.
  - apply in_map_iff in H. destruct H as (c1 & <- & H0). apply filter_In in H0. destruct H0 as [H0 H1]. apply in_map_iff in H0.
    destruct H0 as (c0 & <- & H0). exists c0. destruct (fi_same c0) as (E1 & E2 & _). unfold froma in H1. rewrite E1, E2 in H1.
    assert (E : c_from c0 = a /\ c_out c0 = 0) by lia. pose proof (wf_rank _ _ _ _ _ WF c0 H0) as R. pose proof rank_oa.
    assert (fi c0 = c0 /\ c_to c0 <> o).
    { destruct (fi_cases c0 H0) as [(F & _) | [(F & _) | [(F & _) | (F & _ & K)]]]; auto; exfalso; rewrite F in R; destruct E as [E _]; rewrite E in R; lia. }
    left. destruct H2 as [-> H2]. tauto.
Qed.
Lemma retarget_hits c e d : c_sig c = true -> hits n e (retarget c (n, d)) = Nat.eqb d e.
Proof. intros H. unfold hits, retarget. cbn [c_sig c_to c_in fst snd]. now rewrite H, Nat.eqb_refl. Qed.
Lemma at_new e : filter (hits n e) (conns g') =
  map (fun c => retarget c (n, e)) (if Nat.leb e 1 then filter (hits o e) (conns g) else if Nat.eqb e 2 then filter (hits a (1 - i)) (conns g) else []).
Proof.
  rewrite new_filter. pose proof lt_o as Lo. pose proof lt_a as La. pose proof o_ne_a as Hoa. pose proof rank_oa as Hr.
  assert (Hs : forall c, In c (conns g) -> c_to c = o \/ c_to c = a -> c_sig c = true) by (intros c H1 H2; apply sig_in; tauto).
  assert (E2 : filter (fun c => hits n e (fi c) && (froma c && keep (refrom (fi c) n))) (conns g) = []).
  { apply filter_none. intros c Hc. apply not_true_iff_false. intros F. unfold froma in F.
    assert (F1 : c_from c = a) by lia. assert (F2 : hits n e (fi c) = true) by (destruct (hits n e (fi c)); auto). pose proof (wf_rank _ _ _ _ _ WF c Hc) as R.
    pose proof (fr_conn _ _ Hfr c Hc) as Q. rewrite F1 in R.
    destruct (fi_cases c Hc) as [(K & _) | [(K & _) | [(K & _ & K2) | (_ & _ & K2)]]]; try (rewrite K in R; lia).
    rewrite K2 in F2. apply hits_iff in F2. lia. }
  rewrite E2. cbn [map]. rewrite app_nil_r.
  destruct inputs as (p0 & p1 & q & c0 & I0 & I1 & I2 & I3 & I4 & I5 & I6).
  destruct (Nat.leb_spec e 1) as [He | He]; [ | destruct (Nat.eqb_spec e 2) as [-> | He2]].
  - assert (E1 : filter (fun c => hits n e (fi c) && keep (fi c)) (conns g) = filter (hits o e) (conns g)).
    { apply filter_ext_in. intros c Hc. pose proof (fr_conn _ _ Hfr c Hc) as Q.
      destruct (fi_cases c Hc) as [(K & K2 & K3) | [(K & K1 & K2) | [(K & _ & K2) | (K & K1 & K2)]]].
      - rewrite K2, retarget_hits by auto. unfold hits. rewrite (Hs c Hc) by auto. rewrite K, Nat.eqb_refl. cbn [andb].
        destruct (Nat.eqb_spec (c_in c) e) as [E | ]; [ | reflexivity]. cbn [andb]. unfold keep, retarget. cbn [c_from c_to fst].
        assert (c_from c <> o /\ c_from c <> a).
        { assert (In c (filter (hits o e) (conns g))) as HI. { apply filter_In. split; [exact Hc | ]. apply hits_iff. auto. }
          destruct e as [ | [ | ]]; [rewrite I0 in HI | rewrite I1 in HI | lia]; destruct HI as [<- | []]; [destruct (I6 p0) | destruct (I6 p1)]; tauto. }
        lia.
      - rewrite K2, retarget_hits by auto. unfold hits. rewrite K. replace (Nat.eqb a o) with false by lia. rewrite andb_false_r. cbn [andb]. lia.
      - rewrite K2. unfold hits. rewrite K. replace (Nat.eqb a n) with false by lia. replace (Nat.eqb a o) with false by lia. cbn [andb]. rewrite !andb_false_r. reflexivity.
      - rewrite K2. unfold hits. replace (Nat.eqb (c_to c) n) with false by lia. replace (Nat.eqb (c_to c) o) with false by lia. cbn [andb]. rewrite !andb_false_r. reflexivity. }
    rewrite E1. apply map_ext_in. intros c Hc. apply filter_In in Hc. destruct Hc as [Hc Hh]. apply hits_iff in Hh. destruct Hh as (_ & K1 & K2).
    destruct (fi_cases c Hc) as [(K & K3 & _) | [(K & _) | [(K & _) | (K & _)]]]; congruence.
  - assert (E1 : filter (fun c => hits n 2 (fi c) && keep (fi c)) (conns g) = filter (hits a (1 - i)) (conns g)).
    { apply filter_ext_in. intros c Hc. pose proof (fr_conn _ _ Hfr c Hc) as Q.
      destruct (fi_cases c Hc) as [(K & K2 & K3) | [(K & K1 & K2) | [(K & K1 & K2) | (K & K1 & K2)]]].
      - rewrite K2, retarget_hits by auto. unfold hits. rewrite K. replace (Nat.eqb o a) with false by lia. cbn [andb]. rewrite andb_false_r. cbn [andb]. lia.
      - rewrite K2, retarget_hits by auto. unfold hits. rewrite (Hs c Hc) by auto. rewrite K, K1, !Nat.eqb_refl. cbn [andb].
        unfold keep, retarget. cbn [c_from c_to fst].
        assert (c_from c <> o /\ c_from c <> a).
        { assert (In c (filter (hits a (1 - i)) (conns g))) as HI. { apply filter_In. split; [exact Hc | ]. apply hits_iff. auto. }
          rewrite I2 in HI. destruct HI as [<- | []]. destruct (I6 q); tauto. }
        lia.
      - rewrite K2. unfold hits. rewrite K, K1. replace (Nat.eqb a n) with false by lia. pose proof i_lt. replace (Nat.eqb i (1 - i)) with false by lia. rewrite !andb_false_r. reflexivity.
      - rewrite K2. unfold hits. replace (Nat.eqb (c_to c) n) with false by lia. replace (Nat.eqb (c_to c) a) with false by lia. cbn [andb]. rewrite !andb_false_r. reflexivity. }
    rewrite E1. apply map_ext_in. intros c Hc. apply filter_In in Hc. destruct Hc as [Hc Hh]. apply hits_iff in Hh. destruct Hh as (_ & K1 & K2).
    destruct (fi_cases c Hc) as [(K & K3 & _) | [(K & K3 & K4) | [(K & K3 & _) | (K & K3 & _)]]]; try congruence. pose proof i_lt. lia.
  - cbn [map]. rewrite filter_none; [reflexivity | ]. intros c Hc. apply not_true_iff_false. intros F. apply andb_true_iff in F. destruct F as [F _].
    pose proof (fr_conn _ _ Hfr c Hc) as Q. apply hits_iff in F. destruct F as (_ & F1 & F2).
    destruct (fi_cases c Hc) as [(K & K2 & K3) | [(K & K1 & K2) | [(K & K1 & K2) | (K & K1 & K2)]]]; rewrite K2 in F1, F2; unfold retarget in *; cbn [c_to c_in fst snd] in *; lia.
Qed.
Lemma at_beyond x e : n < x -> filter (hits x e) (conns g') = [].
Proof.
  intros Hx. apply filter_none. intros c Hc. apply not_true_iff_false. intros F. apply hits_iff in F. destruct F as (_ & F & _).
  assert (H : c_to c <= n).
  { destruct (in_new c Hc) as (c0 & [(H0 & [(-> & _) | (-> & _ & _ & K)] & _) | (H0 & _ & -> & _)]);
      pose proof (fr_conn _ _ Hfr c0 H0); try (cbn [refrom c_to]; lia);
      destruct (fi_cases c0 H0) as [(_ & K2 & _) | [(_ & _ & K2) | [(_ & _ & K2) | (_ & _ & K2)]]]; rewrite K2; unfold retarget; cbn [c_to fst]; lia. }
  lia.
Qed.

Lemma fma_kind_old x : x < n -> x <> o -> x <> a -> x <> G -> kind_of g' x = kind_of g x.
Proof.
  intros. unfold g'. rewrite fma_eq. cbn [pt kind_of]. replace (Nat.eqb x n) with false by lia.
  replace (Nat.eqb x o || Nat.eqb x a) with false by lia. replace (Nat.eqb x G) with false by lia. reflexivity.
Qed.
Lemma fma_kind_gone x : x = o \/ x = a -> kind_of g' x = Outlet.
Proof.
  intros H. pose proof lt_o. pose proof lt_a. unfold g'. rewrite fma_eq. cbn [pt kind_of]. replace (Nat.eqb x n) with false by lia.
  replace (Nat.eqb x o || Nat.eqb x a) with true by lia. reflexivity.
Qed.
Lemma fma_kind_new : kind_of g' n = Leaf true [Some false; Some false; Some false] [Some false] None.
Proof. unfold g'. rewrite fma_eq. cbn [pt kind_of]. rewrite Nat.eqb_refl. reflexivity. Qed.
Lemma G_facts : G < n /\ G <> o /\ G <> a /\ exists objs il ol, kind_of g G = Graph objs il ol.
Proof.
  unfold inside in Hin. destruct (kind_of g G) as [ | | | objs il ol] eqn:E; try contradiction. pose proof kind_o. pose proof kind_a'. split.
  - destruct (Nat.lt_ge_cases G n) as [ | Hge]; [assumption | ]. rewrite (fr_kind _ _ Hfr G Hge) in E. discriminate.
  - split; [congruence | ]. split; [congruence | ]. eauto.
Qed.
Lemma fma_kind_G : exists objs il ol, kind_of g G = Graph objs il ol /\
  kind_of g' G = Graph (filter (fun y => negb (Nat.eqb y o || Nat.eqb y a)) objs ++ [n]) il ol.
Proof.
  destruct G_facts as (L & N1 & N2 & objs & il & ol & E). exists objs, il, ol. split; [exact E | ].
  unfold g'. rewrite fma_eq. cbn [pt kind_of]. replace (Nat.eqb G n) with false by lia.
  replace (Nat.eqb G o || Nat.eqb G a) with false by lia. rewrite Nat.eqb_refl, E. reflexivity.
Qed.
Lemma fma_kind_beyond x : n < x -> kind_of g' x = Outlet.
Proof.
  intros H. pose proof lt_o. pose proof lt_a. destruct G_facts as (L & _). unfold g'. rewrite fma_eq. cbn [pt kind_of]. replace (Nat.eqb x n) with false by lia.
  replace (Nat.eqb x o || Nat.eqb x a) with false by lia. replace (Nat.eqb x G) with false by lia. apply (fr_kind _ _ Hfr). lia.
Qed.
Lemma fma_graphs x objs il ol : kind_of g' x = Graph objs il ol ->
  x < n /\ x <> o /\ x <> a /\ exists ob, kind_of g x = Graph ob il ol /\ (x = G /\ objs = filter (fun y => negb (Nat.eqb y o || Nat.eqb y a)) ob ++ [n] \/ x <> G /\ objs = ob).
Proof.
  intros H. destruct (Nat.lt_trichotomy x n) as [L | [-> | L]]; [ | rewrite fma_kind_new in H; discriminate | rewrite fma_kind_beyond in H by auto; discriminate].
  destruct (Nat.eq_dec x o) as [-> | N1]; [rewrite fma_kind_gone in H by auto; discriminate | ].
  destruct (Nat.eq_dec x a) as [-> | N2]; [rewrite fma_kind_gone in H by auto; discriminate | ]. repeat split; auto.
  destruct (Nat.eq_dec x G) as [-> | N3].
  - destruct fma_kind_G as (ob & il' & ol' & E & E'). rewrite E' in H. inversion H; subst. exists ob. auto.
  - rewrite fma_kind_old in H by auto. exists objs. auto.
Qed.
Lemma fma_nxt : nxt w' = S n. Proof. rewrite fma_eq. reflexivity. Qed.
Lemma fma_ty x : ty w' x = if Nat.eqb x n then t else if Nat.eqb x o || Nat.eqb x a then Other else w.(ty) x.
Proof. rewrite fma_eq. reflexivity. Qed.

(** ** Values *)
Section Values.
Context {A : Type} (add sub mul : A -> A -> A) (zero : A) (inp : nat -> A) (b : build) (f0 : nat -> list A -> nat -> A).
Context (Hcomm : forall x y, add x y = add y x) (Hms : b = Neon8 -> t <> Fms).
Notation isum := (inlet_sum add zero).
Let fg := kernels add sub mul b (ty w) f0.
Let fg' := kernels add sub mul b (ty w') f0.
Notation sol := (solution add zero inp).

Definition value_of (V : nat -> nat -> A) c := V (c_from c) (c_out c).
Lemma isum_old V V' x e : x < n -> x <> o -> x <> a ->
  (forall y j, y < n -> y <> o -> y <> a -> V' y j = V y j) -> (forall j, V' n j = V a j) ->
  isum g' V' x e = isum g V x e.
Proof.
  intros Hx Ho Ha HV Hn. rewrite !inlet_sum_eq, at_old by auto. rewrite map_map. f_equal. apply map_ext_in. intros c Hc.
  apply filter_In in Hc. destruct Hc as [Hc Hh]. unfold reroute. destruct (Nat.eqb_spec (c_from c) a) as [E | N].
  - cbn [refrom c_from c_out]. rewrite E. apply Hn.
  - apply HV; auto; [now apply (fr_conn _ _ Hfr c) | ]. destruct the_conn as (c0 & _ & _ & _ & H4 & _ & H6). intros F.
    apply hits_iff in Hh. destruct Hh as (_ & Hh & _). rewrite (H6 c Hc F) in Hh. congruence.
Qed.
(** What the fused object computes *)
Lemma fused_value x y z j : fg' n [x; y; z] j = if op_eqb (ty w a) Add then add (mul x y) z else sub (mul x y) z.
Proof.
  unfold fg', kernels. rewrite fma_ty, Nat.eqb_refl. destruct match_facts as (_ & [[-> E] | [-> [_ E]]] & _); rewrite E.
  - cbn [op_eqb]. unfold hv_fma. destruct b; auto.
  - cbn [op_eqb]. unfold hv_fms. destruct b eqn:Eb; auto. exfalso. now apply Hms.
Qed.
Lemma unfused_value V j : (forall j, V o j = fg o (map (isum g V o) [0; 1]) j) ->
  fg a (map (isum g V a) [0; 1]) j = if op_eqb (ty w a) Add then add (mul (isum g V o 0) (isum g V o 1)) (isum g V a (1 - i)) else sub (mul (isum g V o 0) (isum g V o 1)) (isum g V a (1 - i)).
Proof.
  intros Hv. destruct inputs as (p0 & p1 & q & c0 & I0 & I1 & I2 & I3 & I4 & I5 & _).
  assert (Ei : isum g V a i = mul (isum g V o 0) (isum g V o 1)).
  { rewrite inlet_sum_eq, I3. cbn [map psum fold_left]. rewrite I4, I5, Hv. unfold fg, kernels. rewrite ty_o. reflexivity. }
  rewrite <- Ei. destruct match_facts as (_ & [[E _] | [E [E2 _]]] & _); unfold fg, kernels; rewrite E; cbn [op_eqb map].
  - pose proof i_lt. destruct i as [ | [ | ]]; [reflexivity | apply Hcomm | lia].
  - rewrite E2. reflexivity.
Qed.
Lemma new_inputs V V' : (forall y j, y < n -> y <> o -> y <> a -> V' y j = V y j) ->
  isum g' V' n 0 = isum g V o 0 /\ isum g' V' n 1 = isum g V o 1 /\ isum g' V' n 2 = isum g V a (1 - i).
Proof.
  intros HV. destruct inputs as (p0 & p1 & q & c0 & I0 & I1 & I2 & I3 & I4 & I5 & I6). rewrite !inlet_sum_eq, !at_new. cbn [Nat.leb Nat.eqb].
  rewrite I0, I1, I2. cbn [map psum fold_left retarget c_from c_out].
  assert (HP : forall p, p = p0 \/ p = p1 \/ p = q -> V' (c_from p) (c_out p) = V (c_from p) (c_out p)).
  { intros p Hp. destruct (I6 p Hp) as (K1 & K2 & K3 & _). apply HV; auto. now apply (fr_conn _ _ Hfr p). }
  repeat split; apply HP; auto.
Qed.
Lemma fg_same x l j : x <> n -> x <> o -> x <> a -> fg' x l j = fg x l j.
Proof.
  intros. unfold fg', fg, kernels. rewrite fma_ty. replace (Nat.eqb x n) with false by lia. replace (Nat.eqb x o || Nat.eqb x a) with false by lia. reflexivity.
Qed.
Lemma outlet_obj_old K objs il ol j x : kind_of g K = Graph objs il ol -> nth_error ol j = Some x \/ nth_error il j = Some x ->
  x < n /\ x <> o /\ x <> a.
Proof.
  intros E H. assert (Hi : In x (il ++ ol)). { apply in_or_app. destruct H as [H | H]; apply nth_error_In in H; auto. }
  split; [apply (fr_lets _ _ Hfr K objs il ol x E); apply in_or_app; now right | ].
  destruct (wf_inlets _ _ _ _ _ WF K objs il ol E) as (_ & _ & I1 & I2).
  assert (kind_of g x = Outlet \/ exists d, kind_of g x = Inlet d). { apply in_app_or in Hi. destruct Hi as [Hi | Hi]; [apply I1 in Hi | apply I2 in Hi]; tauto. }
  pose proof kind_o. pose proof kind_a'. split; intros ->; destruct H0 as [H0 | [d H0]]; congruence.
Qed.

(** Every solution before gives one after, with the same signals at the other objects... *)
Lemma fma_forth V : sol g fg V -> let V' := (fun x j => if Nat.eqb x n then V a j else V x j) in
  sol g' fg' V' /\ forall x e, x < n -> x <> o -> x <> a -> isum g' V' x e = isum g V x e.
Proof.
  intros (S1 & S2 & S3 & S4) V'. pose proof lt_o as Lo. pose proof lt_a as La.
  assert (HV : forall y j, y < n -> y <> o -> y <> a -> V' y j = V y j).
  { intros y j H _ _. unfold V'. replace (Nat.eqb y n) with false by lia. reflexivity. }
  assert (HVn : forall j, V' n j = V a j). { intros j. unfold V'. now rewrite Nat.eqb_refl. }
  assert (HS := fun x e Hx Ho Ha => isum_old V V' x e Hx Ho Ha HV HVn). split; [ | exact HS].
  assert (Hk : forall x, kind_of g' x <> Outlet -> (forall a b c, kind_of g' x <> Graph a b c) -> x <> n -> x < n /\ x <> o /\ x <> a /\ kind_of g x = kind_of g' x).
  { intros x H1 H2 H3. destruct (Nat.lt_trichotomy x n) as [L | [-> | L]]; [ | congruence | rewrite fma_kind_beyond in H1 by auto; congruence].
    assert (x <> o) by (intros ->; apply H1; apply fma_kind_gone; auto). assert (x <> a) by (intros ->; apply H1; apply fma_kind_gone; auto).
    repeat split; auto. symmetry. apply fma_kind_old; auto. intros ->. destruct fma_kind_G as (? & ? & ? & _ & E). eapply H2, E. }
  split; [ | split; [ | split]].
  - intros x sg ins outs E j. destruct (Nat.eq_dec x n) as [-> | Hne].
    + rewrite fma_kind_new in E. inversion E; subst. cbn [sig_lets map filter number]. change (sig_lets [Some false; Some false; Some false]) with [0; 1; 2]. cbn [map].
      destruct (new_inputs V V' HV) as (-> & -> & ->). rewrite fused_value, HVn. rewrite (S1 a _ _ _ kind_a' j).
      apply unfused_value. intros j'. apply (S1 o _ _ _ kind_o j').
    + destruct (Hk x) as (L & No & Na & Ek); try congruence. rewrite fg_same by auto. rewrite HV by auto.
      rewrite (S1 x sg ins outs) by congruence. f_equal. apply map_ext. intros e. symmetry. auto.
  - intros x ch E. destruct (Nat.eq_dec x n) as [-> | Hne]; [rewrite fma_kind_new in E; discriminate | ].
    destruct (Hk x) as (L & No & Na & Ek); try congruence. rewrite HV by auto. apply S2. congruence.
  - intros K objs il ol e x E En Ek. destruct (fma_graphs _ _ _ _ E) as (LK & NK1 & NK2 & ob & E2 & _).
    destruct (outlet_obj_old K ob il ol e x E2 (or_intror En)) as (L & No & Na). rewrite HV, HS by auto. apply (S3 K ob il ol e x); auto.
    destruct (Hk x) as (_ & _ & _ & Ek2); try congruence. lia.
  - intros K objs il ol e x E En. destruct (fma_graphs _ _ _ _ E) as (LK & NK1 & NK2 & ob & E2 & _).
    destruct (outlet_obj_old K ob il ol e x E2 (or_introl En)) as (L & No & Na). rewrite HV, HS by auto. apply (S4 K ob il ol e x); auto.
Qed.
(** ... and the other way round. *)
Lemma fma_back V' : sol g' fg' V' -> exists V, sol g fg V /\ (forall j, V a j = V' n j) /\
  (forall x j, x <> o -> x <> a -> V x j = V' x j) /\ forall x e, x < n -> x <> o -> x <> a -> isum g' V' x e = isum g V x e.
Proof.
  intros (S1 & S2 & S3 & S4). pose proof lt_o as Lo. pose proof lt_a as La. pose proof o_ne_a as Hoa.
  set (V := fun x j => if Nat.eqb x a then V' n j else if Nat.eqb x o then mul (isum g' V' n 0) (isum g' V' n 1) else V' x j).
  assert (HV : forall y j, y < n -> y <> o -> y <> a -> V' y j = V y j).
  { intros y j _ H1 H2. unfold V. replace (Nat.eqb y a) with false by lia. replace (Nat.eqb y o) with false by lia. reflexivity. }
  assert (HVn : forall j, V' n j = V a j). { intros j. unfold V. now rewrite Nat.eqb_refl. }
  assert (HS := fun x e Hx Ho Ha => isum_old V V' x e Hx Ho Ha HV HVn). exists V. split; [ | split; [auto | split; [ | exact HS]]].
  2: { intros x j H1 H2. unfold V. replace (Nat.eqb x a) with false by lia. replace (Nat.eqb x o) with false by lia. reflexivity. }
  assert (Hvo : forall j, V o j = fg o (map (isum g V o) [0; 1]) j).
  { intros j. unfold V at 1. replace (Nat.eqb o a) with false by lia. rewrite Nat.eqb_refl. cbn [map]. destruct (new_inputs V V' HV) as (-> & -> & _).
    unfold fg, kernels. rewrite ty_o. reflexivity. }
  assert (Hlt : forall x, kind_of g x <> Outlet -> x < n).
  { intros x H. destruct (Nat.lt_ge_cases x n) as [ | Hge]; [assumption | ]. exfalso. apply H. apply (fr_kind _ _ Hfr x Hge). }
  assert (Hk : forall x, x < n -> x <> o -> x <> a -> (forall a b c, kind_of g x <> Graph a b c) -> kind_of g' x = kind_of g x).
  { intros x H1 H2 H3 H4. apply fma_kind_old; auto. intros ->. destruct fma_kind_G as (? & ? & ? & E & _). eapply H4, E. }
  assert (HG : forall K objs il ol, kind_of g K = Graph objs il ol -> K < n /\ K <> o /\ K <> a /\ exists ob, kind_of g' K = Graph ob il ol).
  { intros K objs il ol E. assert (K < n) by (apply Hlt; congruence). pose proof kind_o. pose proof kind_a'.
    assert (K <> o) by congruence. assert (K <> a) by congruence. repeat split; auto. destruct (Nat.eq_dec K G) as [-> | Hne].
    - destruct fma_kind_G as (ob & il' & ol' & E1 & E2). rewrite E in E1. inversion E1; subst. eauto.
    - rewrite fma_kind_old by auto. eauto. }
  split; [ | split; [ | split]].
  - intros x sg ins outs E j. destruct (Nat.eq_dec x o) as [-> | No]; [ | destruct (Nat.eq_dec x a) as [-> | Na]].
    + rewrite kind_o in E. inversion E; subst. apply Hvo.
    + rewrite kind_a' in E. inversion E; subst. change (sig_lets [Some false; Some false]) with [0; 1].
      rewrite unfused_value by exact Hvo. rewrite <- HVn. rewrite (S1 n _ _ _ fma_kind_new j).
      change (sig_lets [Some false; Some false; Some false]) with [0; 1; 2]. cbn [map]. rewrite fused_value.
      destruct (new_inputs V V' HV) as (-> & -> & ->). reflexivity.
    + assert (L : x < n) by (apply Hlt; congruence). rewrite <- HV by auto. rewrite <- fg_same by (auto; lia).
      rewrite (S1 x sg ins outs) by (rewrite Hk; congruence). f_equal. apply map_ext. intros e. auto.
  - intros x ch E. assert (L : x < n) by (apply Hlt; congruence). pose proof kind_o. pose proof kind_a'.
    assert (x <> o) by congruence. assert (x <> a) by congruence. rewrite <- HV by auto. apply S2. rewrite Hk; congruence.
  - intros K objs il ol e x E En Ek. destruct (HG _ _ _ _ E) as (LK & NK1 & NK2 & ob & E2).
    destruct (outlet_obj_old K objs il ol e x E (or_intror En)) as (L & No & Na). rewrite <- HV by auto. rewrite <- HS by auto. apply (S3 K ob il ol e x); auto.
    rewrite Hk; congruence.
  - intros K objs il ol e x E En. destruct (HG _ _ _ _ E) as (LK & NK1 & NK2 & ob & E2).
    destruct (outlet_obj_old K objs il ol e x E (or_introl En)) as (L & No & Na). rewrite <- HV by auto. rewrite <- HS by auto. apply (S4 K ob il ol e x); auto.
Qed.
End Values.
End Step.
