(** Names in nested patches. *)
From Verif Require Import ScopeSpec ScopeProofs ScopeProofs2.
From Coq Require Import String List Lia ZArith.
Import ListNotations.
Local Open Scope list_scope.
Open Scope Z_scope.

(** Looking up a name finds exactly the objects a graph sees. *)
Theorem lookup_finds_the_visible r name kinds g o : In o (resolve_objects r name kinds g) <-> visible r name kinds g o.
Proof. apply in_resolve. Qed.
Print Assumptions lookup_finds_the_visible.
(** Nearest graph first; in one graph, in the order in which they were added. *)
Theorem lookup_nearest_first objects r name kinds g o p : add_objects [] objects = Some r -> before (resolve_objects r name kinds g) o p ->
  (length (home p) < length (home o))%nat \/ home o = home p /\ before (map snd r) o p.
Proof. intros E. apply resolve_order. apply (adds_at_home objects [] r); [intros ? ? [] | exact E]. Qed.
Print Assumptions lookup_nearest_first.
Example lookup_case :
  let a := mkNamed 1 (T "x") KReceiveIr Public [] in let b := mkNamed 2 (T "x") KReceiveIr Private [0%nat] in
  let c := mkNamed 3 (T "x") KReceiveIr Private [1%nat] in
  exists r, add_objects [] [a; b; c] = Some r /\ resolve_objects r (T "x") [KReceiveIr] [0%nat] = [b; a] /\ resolve_objects r (T "x") [KReceiveIr] [5%nat; 0%nat] = [a].
Proof. eexists. split; [reflexivity |]. split; reflexivity. Qed.
(** Two tables of one name are refused, wherever they are; others are not. *)
Theorem tables_loaded_iff_names_differ tables : Forall pd_table tables -> (exists r, add_objects [] tables = Some r) <-> NoDup (map n_name tables).
Proof.
  intros P. rewrite Forall_forall in P. destruct (load_tables tables [] P (NoDup_nil _)) as [A B]. cbn [app] in *. split.
  - intros [r E]. destruct (ListDec.NoDup_dec (list_eq_dec Z.eq_dec) (map n_name tables)) as [N | N]; [exact N |]. specialize (B N). change (at_root []) with (@nil (place * named)) in B. congruence.
  - intros N. eexists. exact (A N).
Qed.
Print Assumptions tables_loaded_iff_names_differ.
(** At every moment while a patch is reduced, in whatever order, a name means the same table in every subpatch: the one with that name. *)
Theorem table_name_means_one_table tables done : Forall pd_table tables -> NoDup (map n_name tables) -> NoDup done -> incl done tables ->
  exists r0 r, add_objects [] tables = Some r0 /\ reduce_tables r0 done = Some r /\
    forall g name, (forall t, In t tables -> n_name t = name -> table_of r name g = Some (n_id t)) /\
                   (~ In name (map n_name tables) -> table_of r name g = None).
Proof.
  intros P N U D. rewrite Forall_forall in P. exists (at_root tables), (at_root tables ++ own done).
  split; [exact (proj1 (load_tables tables [] P (NoDup_nil _)) N) |]. split.
  - assert (R := reduce_all tables done [] N P D U). cbn [app own map] in R. rewrite app_nil_r in R. exact R.
  - intros g name. apply refers; assumption.
Qed.
Print Assumptions table_name_means_one_table.
(** The dictionary of tables has every table once, if no two names are made equal by the "_" before a digit. *)
Theorem table_dictionary_complete tables done : Forall pd_table tables -> NoDup (map n_name tables) -> NoDup done -> incl done tables ->
  (forall t u, In t tables -> In u tables -> escape (n_name t) = escape (n_name u) -> n_name t = n_name u) ->
  exists r0 r, add_objects [] tables = Some r0 /\ reduce_tables r0 done = Some r /\
    NoDup (map fst (table_dict r)) /\ forall k i, In (k, i) (table_dict r) <-> exists t, In t tables /\ k = escape (n_name t) /\ i = n_id t.
Proof.
  intros P N U D Inj. rewrite Forall_forall in P. exists (at_root tables), (at_root tables ++ own done).
  split; [exact (proj1 (load_tables tables [] P (NoDup_nil _)) N) |]. split.
  - assert (R := reduce_all tables done [] N P D U). cbn [app own map] in R. rewrite app_nil_r in R. exact R.
  - apply dict_complete; assumption.
Qed.
Print Assumptions table_dictionary_complete.
Example two_tables : let a := mkNamed 7 (T "wave") KTable Public [0%nat] in let b := mkNamed 8 (T "2nd") KTable Public [] in
  Forall pd_table [a; b] /\ exists r, reduce_tables [([], a); ([], b)] [b; a] = Some r /\ table_of r (T "wave") [3%nat; 1%nat] = Some 7 /\
  table_dict r = [(T "_2nd", 8); (T "wave", 7)].
Proof. split; [repeat constructor |]. eexists. split; [reflexivity |]. split; reflexivity. Qed.
(** Tables "1a" and "_1a": the second is not in the dictionary, and nothing is reported. *)
Theorem table_lost_refuted : exists a b r0 r, Forall pd_table [a; b] /\ n_name a <> n_name b /\ add_objects [] [a; b] = Some r0 /\ reduce_tables r0 [a; b] = Some r /\
  forall k, ~ In (k, n_id b) (table_dict r).
Proof.
  exists (mkNamed 7 (T "1a") KTable Public []), (mkNamed 8 (T "_1a") KTable Public []). eexists. eexists. split; [repeat constructor |]. split; [discriminate |].
  split; [reflexivity |]. split; [reflexivity |]. intros k [E | []]. discriminate E.
Qed.
Print Assumptions table_lost_refuted.
