(** The objects without delays keep to their specifications. *)
From Verif Require Import PatchProofs PatchSpec.
From Coq Require Import Lia.
Open Scope Z_scope.

Section Sim.
Variables (E : env) (fp : flat) (S I : Type) (ev : I -> event) (spec : S -> list I -> list out)
          (Inv : S -> world -> Prop) (ok : S -> list I -> Prop).
Hypothesis spec_nil : forall s, spec s [] = [].
Hypothesis spec_cons : forall s i l w, ok s (i :: l) -> Inv s w ->
  exists s' o w1, plays E fp w [ev i] w1 /\ Inv s' w1 /\ sent w1 = log (sent w) o /\ spec s (i :: l) = o ++ spec s' l /\ ok s' l.
Lemma simulate l : forall s w, ok s l -> Inv s w ->
  exists w', plays E fp w (map ev l) w' /\ sent w' = log (sent w) (spec s l).
Proof.
  induction l as [| i l IH]; intros s w Hok Hi.
  - exists w. split; [apply plays_nil |]. rewrite spec_nil. symmetry. apply app_nil_r.
  - destruct (spec_cons s i l w Hok Hi) as (s' & o & w1 & Hp & Hi1 & Hs & -> & Hok1).
    destruct (IH s' w1 Hok1 Hi1) as (w' & Hp' & Hs'). exists w'. split.
    + cbn [map]. change (ev i :: map ev l) with ([ev i] ++ map ev l). eapply plays_app; eassumption.
    + rewrite Hs', Hs. unfold log. symmetry. apply app_assoc.
Qed.
End Sim.

Lemma plays_one E fp now i m w w1 : runs E fp now w (inlet_task fp i m) w1 -> plays E fp w [In_ now i m] w1.
Proof. intros H. eapply plays_in; [exact H | apply plays_nil]. Qed.

(** Facts of the float constants. *)
Ltac consts := first [rewrite one_zero | rewrite zero_zero].

(** A patch without loadbang. *)
Lemma sends_of E p l o w : load_tasks (flatten p 0) = [] -> plays E (flatten p 0) (boot (flatten p 0)) l w -> sent w = o -> sends E p l o.
Proof. intros Hl Hp Hs. exists (boot (flatten p 0)), w. rewrite Hl. split; [apply runs_nil | split; assumption]. Qed.

(** ** moses *)
Inductive moses_inv : f32 -> world -> Prop :=
| moses_i k b s : moses_inv k (mkWorld [PPass; PPass; PPass; PPass; PBin GREATER_THAN_EQL k; PSeq [CA; CA]; PIf b] [] s).
Lemma moses_sends E k l : sends E (moses_pd k) (map number_event l) (moses_spec k l).
Proof.
  destruct (simulate E (flatten (moses_pd k) 0) f32 _ number_event moses_spec moses_inv (fun _ _ => True)) with (s := k) (l := l) (w := boot (flatten (moses_pd k) 0))
    as (w & Hp & Hs); [reflexivity | | exact I | exact (moses_i k false []) | refine (sends_of E _ _ _ w _ Hp Hs); reflexivity].
  intros v [t [x | y]] l' w _ Hi; inversion Hi; subst; cbn [number_event moses_spec].
  - destruct (fleb v x) eqn:H; eexists v, [_], _; (split; [apply plays_one; norm; run ltac:(first [rewrite H | consts]) |]);
      (split; [constructor | split; [reflexivity | split; [reflexivity | exact I]]]).
  - eexists y, [], _. split; [apply plays_one; norm; run consts |].
    split; [constructor | split; [cbn; now rewrite log_nil | split; [reflexivity | exact I]]].
Qed.

(** ** spigot *)
Inductive spigot_inv : f32 -> world -> Prop :=
| spigot_i k b s : feqb k fzero = negb b -> spigot_inv k (mkWorld [PPass; PPass; PPass; PIf b] [] s).
Lemma spigot_sends E k l : sends E (spigot_pd k) (map gate_event l) (spigot_spec k l).
Proof.
  destruct (simulate E (flatten (spigot_pd k) 0) f32 _ gate_event spigot_spec spigot_inv (fun _ _ => True)) with (s := k) (l := l) (w := boot (flatten (spigot_pd k) 0))
    as (w & Hp & Hs); [reflexivity | | exact I | exact (spigot_i k (negb (feqb k fzero)) [] (eq_sym (Bool.negb_involutive _)))
                      | refine (sends_of E _ _ _ w _ Hp Hs); reflexivity].
  intros v [t [m | y]] l' w _ Hi; inversion Hi as [k' b s Hb]; subst; cbn [gate_event spigot_spec]; rewrite ?Hb.
  - destruct b; eexists v, _, _; (split; [apply plays_one; norm; run consts |]);
      (split; [constructor; exact Hb | split; [| split; [reflexivity | exact I]]]); cbn; rewrite ?log_nil; reflexivity.
  - eexists y, [], _. split; [apply plays_one; norm; run consts |].
    split; [constructor; destruct (feqb y fzero); reflexivity | split; [cbn; now rewrite log_nil | split; [reflexivity | exact I]]].
Qed.

(** ** Switching on a message *)
Definition hash_of (E : env) (e : elem) : Z := elem_hash E e.
Lemma switch_float E cs x : float_bits (e_nan E) x <> hv_string_to_hash (T "symbol") ->
  Forall (fun c => float_bits (e_nan E) x <> label_hash E c) cs -> switch_outlet E cs [EF x] = Ok (List.length cs).
Proof.
  intros Hs Hc. unfold switch_outlet. cbn [elem_hash]. rewrite (proj2 (Z.eqb_neq _ _) Hs). f_equal.
  rewrite <- (Nat.add_0_r (List.length cs)). generalize O.
  induction Hc as [| c cs H Hc IH]; intros n; [reflexivity |].
  cbn [find_label]. rewrite (proj2 (Z.eqb_neq _ _) H). rewrite IH. cbn. lia.
Qed.

(** ** change *)
Definition change_cases := [LS (T "bang"); LS (T "set")].
Lemma change_float E x : plain E change_words x -> switch_outlet E change_cases [EF x] = Ok 2%nat.
Proof.
  intros H. pose proof (Forall_inv H) as H1. pose proof (Forall_inv (Forall_inv_tail H)) as H2.
  pose proof (Forall_inv (Forall_inv_tail (Forall_inv_tail H))) as H3. cbv beta in H1, H2, H3. clear H.
  apply (switch_float E change_cases); [exact H3 |]. constructor; [exact H1 | constructor; [exact H2 | constructor]].
Qed.
Lemma change_bang E : switch_outlet E change_cases [EB] = Ok 0%nat.
Proof. reflexivity. Qed.
Lemma change_set E x : switch_outlet E change_cases [word "set"; EF x] = Ok 1%nat.
Proof. reflexivity. Qed.
Definition change_nodes (v : f32) (b : bool) : list prim :=
  [PIf b; PSeq [CF; CF]; PPass; PPass; PPass; PSwitch change_cases; PPass; PSlice 1 (-1); PPass; PSlice 1 (-1); PPass;
   PBin NEQ v; PPass; PSeq [CF; CF]; PVar (EF v); PPass; PPass; PPass].
Inductive change_inv : f32 -> world -> Prop := change_i v b s : change_inv v (mkWorld (change_nodes v b) [] s).
Definition change_ok (E : env) (l : list (Z * change_in)) : Prop :=
  Forall (fun e => match snd e with CFloat x => plain E change_words x | _ => True end) l.
Lemma change_sends E k l : change_ok E l -> sends E (change_pd k) (map change_event l) (change_spec k l).
Proof.
  intros Hok.
  destruct (simulate E (flatten (change_pd k) 0) f32 _ change_event change_spec change_inv (fun _ => change_ok E)) with (s := k) (l := l) (w := boot (flatten (change_pd k) 0))
    as (w & Hp & Hs); [reflexivity | | exact Hok | exact (change_i k false [])
                      | refine (sends_of E _ _ _ w _ Hp Hs); reflexivity].
  clear. intros v [t i] l' w Hok Hi; inversion Hi as [v' b s]; subst; inversion Hok as [| ? ? Hx Hl]; subst; cbn [snd] in Hx.
  destruct i as [x | | x]; cbn [change_event change_spec].
  - pose proof (change_float E x Hx) as Hsw. norm_in Hsw.
    destruct (feqb x v) eqn:Heq.
    + eexists v, [], _. split; [apply plays_one; norm; run ltac:(first [rewrite Hsw | rewrite Heq | consts]) |].
      split; [constructor | split; [cbn; now rewrite log_nil | split; [reflexivity | exact Hl]]].
    + eexists x, [_], _. split; [apply plays_one; norm; run ltac:(first [rewrite Hsw | rewrite Heq | consts]) |].
      split; [constructor | split; [reflexivity | split; [reflexivity | exact Hl]]].
  - pose proof (change_bang E) as Hsw. norm_in Hsw. eexists v, [_], _.
    split; [apply plays_one; norm; run ltac:(first [rewrite Hsw | consts]) |].
    split; [constructor | split; [reflexivity | split; [reflexivity | exact Hl]]].
  - pose proof (change_set E x) as Hsw. norm_in Hsw. eexists x, [], _.
    split; [apply plays_one; norm; run ltac:(first [rewrite Hsw | consts]) |].
    split; [constructor | split; [cbn; now rewrite log_nil | split; [reflexivity | exact Hl]]].
Qed.
