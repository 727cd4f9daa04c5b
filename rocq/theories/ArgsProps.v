(** C42 and its companions: $-arguments. *)
From Coq Require Import ZifyBool.
From Verif Require Import ArgsModel ArgsSpec ArgsProofs.

Lemma resolve_entry gargs s : well_named gargs -> readable gargs (PStr s) -> contains [DOLLAR] s = true ->
  (match resolve_value gargs s with PStr t => contains [DOLLAR] t | _ => false end = false) /\ entry_resolved gargs (PStr s) (resolve_value gargs s).
Proof.
  intros (HN & HF & HP) (ts & -> & HL & HR) Hc.
  pose proof (resolve_value_ok gargs ts HN HF HP HL HR) as Hs.
  assert (Hpl : plain (py_str (resolve_value gargs (render [DOLLAR] ts)))).
  { eapply substituted_plain; [exact HL| |exact Hs]. intros r s _ Hr. unfold arg_text in Hr.
    destruct (arg_of gargs r) as [a|] eqn:E; [|discriminate]. injection Hr as <-.
    assert (exists k, In (k, a) gargs) as (k & Hin).
    { clear -E. induction gargs as [|[x y] l IH]; cbn [arg_of] in E; [discriminate|]. destruct (text_eqb r x).
      - injection E as ->. exists x. left. reflexivity.
      - destruct (IH E) as (k & H). exists k. right. exact H. }
    apply (HP k a Hin). }
  split.
  - destruct (resolve_value gargs (render [DOLLAR] ts)); [|reflexivity]. apply contains_dollar. exact Hpl.
  - split; [|split].
    + intros ts' E HL' HR'. rewrite E. apply resolve_value_ok; assumption.
    + intros k a E Hk Ha. rewrite E. apply resolve_value_exact; assumption.
    + intros Hp. apply contains_dollar in Hp. congruence.
Qed.

(** Heavy abstractions: with argument names none of which is a prefix of another, every entry of an
    argument dictionary is resolved and no entry is lost. *)
Theorem arguments_substituted : forall gargs args, well_named gargs -> (forall k v, In (k, v) args -> readable gargs v) ->
  exists r, resolve_arguments gargs args = Some r /\ map fst r = map fst args /\
            Forall2 (entry_resolved gargs) (map snd args) (map snd r).
Proof.
  intros gargs args HW. induction args as [|[key v] args IH]; intros HR.
  - exists []. repeat split; constructor.
  - destruct IH as (r & E & Ef & Es); [intros k w H; apply (HR k w); right; exact H|].
    assert (Hv : readable gargs v) by (apply (HR key v); left; reflexivity).
    cbn [resolve_arguments]. destruct v as [s|id s].
    + destruct (contains [DOLLAR] s) eqn:Ec.
      * destruct (resolve_entry gargs s HW Hv Ec) as (A & B). rewrite A, E.
        eexists. split; [reflexivity|]. cbn [map fst snd]. split; [f_equal; exact Ef|constructor; assumption].
      * rewrite E. eexists. split; [reflexivity|]. cbn [map fst snd]. split; [f_equal; exact Ef|constructor; [|assumption]].
        apply contains_dollar in Ec. destruct Hv as (ts0 & _). split; [|split].
        -- intros ts Ets HL HRr. destruct (refs ts) as [|r0 l] eqn:Er.
           ++ rewrite (substituted_norefs _ [DOLLAR] ts Er). rewrite Ets. reflexivity.
           ++ exfalso. assert (In r0 (refs ts)) by (rewrite Er; left; reflexivity).
              apply (ref_contains [DOLLAR]) in H. rewrite <- Ets in H. apply contains_spec in H as (a & b & H). apply Ec. rewrite H.
              apply in_or_app. right. left. reflexivity.
        -- intros k a -> _ _. exfalso. apply Ec. left. reflexivity.
        -- intros _. reflexivity.
    + rewrite E. eexists. split; [reflexivity|]. cbn [map fst snd]. split; [f_equal; exact Ef|constructor; [reflexivity|assumption]].
Qed.

(** The comment in the code says that an entry with an unset variable is removed and its object
    uses the default.  In fact compilation stops with an exception, whatever the other entries. *)
Theorem unset_variable_raises : forall gargs args key ts r,
  In (key, PStr (render [DOLLAR] ts)) args ->
  (forall k v, In (k, v) gargs -> plain k /\ plain (py_str v)) -> plain_lits ts -> (forall x, In x (refs ts) -> plain x) ->
  prefix_free (map fst gargs ++ refs ts) -> In r (refs ts) -> ~ In r (map fst gargs) ->
  resolve_arguments gargs args = None.
Proof.
  intros gargs args key ts r Hin HP HL HRp HF Hr Hn.
  destruct (resolve_value_unresolved gargs ts r HF HP HL HRp Hr Hn) as (t & Et & Ec).
  assert (Hc : contains [DOLLAR] (render [DOLLAR] ts) = true).
  { pose proof (ref_contains [DOLLAR] ts r Hr) as C. apply contains_spec in C as (a & b & E). apply contains_spec. exists a, (r ++ b).
    rewrite E, <- app_assoc. reflexivity. }
  induction args as [|[k v] args IH]; [destruct Hin|]. cbn [resolve_arguments]. destruct Hin as [E|Hin].
  - injection E as -> ->. rewrite Hc, Et, Ec. reflexivity.
  - rewrite (IH Hin). destruct v as [s|id s]; [|reflexivity]. destruct (contains [DOLLAR] s); [|reflexivity].
    destruct (match resolve_value gargs s with PStr t0 => contains [DOLLAR] t0 | POther _ _ => false end); reflexivity.
Qed.

(** Arguments named "f" and "f2": $f2 becomes the value of $f followed by "2". *)
Theorem prefix_names_refuted : exists gargs ts t t',
  NoDup (map fst gargs) /\ (forall k v, In (k, v) gargs -> plain k /\ plain (py_str v)) /\ plain_lits ts /\
  (forall r, In r (refs ts) -> In r (map fst gargs)) /\
  substituted (arg_text gargs) ts = Some t /\
  resolve_arguments gargs [([120], PStr (render [DOLLAR] ts))] = Some [([120], PStr t')] /\ t' <> t.
Proof.
  exists [([102], PStr [49]); ([102; 50], PStr [55])], [Ref [102; 50]], [55], [49; 50].
  split; [|split; [|split; [|split; [|split; [|split]]]]].
  - constructor; [intros [C|[]]; discriminate|]. constructor; [intros []|constructor].
  - intros k v [E|[E|[]]]; injection E as <- <-; split; cbn; intros C; repeat (destruct C as [C|C]; [discriminate|]); destruct C.
  - intros s [C|[]]. discriminate.
  - intros r [<- | []]. right. left. reflexivity.
  - reflexivity.
  - reflexivity.
  - discriminate.
Qed.

(** ** Pd abstractions *)
Lemma int_of_nonneg m : forallb is_digit m = true -> 0 <= int_of m.
Proof.
  unfold int_of. assert (H : forall acc, 0 <= acc -> forallb is_digit m = true -> 0 <= fold_left (fun a c => a * 10 + (c - 48)) m acc).
  { induction m as [|c m IH]; intros acc Ha Hd; cbn [fold_left forallb] in *; [exact Ha|]. apply andb_prop in Hd as (Hc & Hd).
    apply IH; [|exact Hd]. unfold is_digit in Hc. lia. }
  intros Hd. apply H; [lia|exact Hd].
Qed.
Lemma lookup_value g m : pg_args g <> [] -> forallb is_digit m = true -> pd_lookup g m = pd_value g m.
Proof.
  intros Hne Hd. pose proof (int_of_nonneg m Hd) as Hx. unfold pd_lookup, pd_value. set (x := int_of m) in *.
  destruct (x <? zlen (pg_args g)) eqn:E.
  - unfold zlen in E. destruct (nth_error (pg_args g) (Z.to_nat x)) eqn:En; [reflexivity|]. apply nth_error_None in En. lia.
  - unfold zlen in *. assert (nth_error (pg_args g) (Z.to_nat x) = None) as -> by (apply nth_error_None; lia).
    assert (0 < x) by (destruct (pg_args g); [congruence|cbn [length] in E; lia]).
    assert (x =? 0 = false) as -> by lia. replace (Z.to_nat (x - 1)) with (Z.to_nat x - 1)%nat by lia.
    destruct (x - 1 <? Z.of_nat (length (pg_hv g))) eqn:E2.
    + destruct (nth_error (pg_hv g) (Z.to_nat x - 1)) eqn:En; [reflexivity|]. apply nth_error_None in En. lia.
    + assert (nth_error (pg_hv g) (Z.to_nat x - 1) = None) as -> by (apply nth_error_None; lia). reflexivity.
Qed.

Lemma maximal_digits ts : maximal ts -> forall r, In r (refs ts) -> forallb is_digit r = true.
Proof.
  induction ts as [|[s|k] ts IH]; intros HM r Hr; cbn [maximal refs flat_map app In] in *; [destruct Hr|apply IH; assumption|].
  destruct HM as (_ & Hd & _ & HM). destruct Hr as [<- | Hr]; [exact Hd|apply IH; assumption].
Qed.

(** Whatever the iteration order of the set of references. *)
Theorem pd_arguments_substituted : forall g ts order,
  pg_args g <> [] -> plain_lits ts -> maximal ts -> prefix_free (refs ts) ->
  (forall r, In r (refs ts) -> exists v, pd_value g r = Some v /\ plain v) ->
  set_order order (findall (render [BACKSLASH; DOLLAR] ts) None) ->
  substituted (pd_value g) ts = Some (pd_resolve g (render [BACKSLASH; DOLLAR] ts) order).
Proof.
  intros g ts order Hne HL HM HF HV (HN & HO). rewrite findall_render in HO by assumption.
  rewrite (substituted_ext (pd_value g) (pd_lookup g)).
  - apply pd_fold_ok; [|exact HL| |].
    + intros a b A B. apply HF; apply HO; assumption.
    + intros r Hr. split; [eapply maximal_refs; eassumption|apply HO; exact Hr].
    + intros m Hm. apply HO in Hm. destruct (HV m Hm) as (v & Ev & Pv). exists v. split; [|exact Pv].
      rewrite lookup_value; [exact Ev|exact Hne|eapply maximal_digits; eassumption].
  - intros r Hr. symmetry. apply lookup_value; [exact Hne|eapply maximal_digits; eassumption].
Qed.

(** "\$1-\$10": the result depends on the order in which Python iterates over a set. *)
Theorem pd_prefix_references_refuted : exists g ts o1 o2,
  pg_args g <> [] /\ plain_lits ts /\ maximal ts /\ (forall r, In r (refs ts) -> exists v, pd_value g r = Some v /\ plain v) /\
  set_order o1 (findall (render [BACKSLASH; DOLLAR] ts) None) /\ set_order o2 (findall (render [BACKSLASH; DOLLAR] ts) None) /\
  substituted (pd_value g) ts = Some (pd_resolve g (render [BACKSLASH; DOLLAR] ts) o1) /\
  substituted (pd_value g) ts <> Some (pd_resolve g (render [BACKSLASH; DOLLAR] ts) o2).
Proof.
  exists (mkPdGraph [[48]; [97]] []), [Ref [49]; Lit [45]; Ref [49; 48]], [[49; 48]; [49]], [[49]; [49; 48]].
  assert (HP : forall z, z <> DOLLAR -> plain [z]) by (intros z N [C|[]]; congruence).
  split; [discriminate|]. split; [intros s [C|[C|[C|[]]]]; try discriminate; injection C as <-; apply HP; discriminate|].
  split; [cbn; repeat split; discriminate|]. split.
  { intros r [<- |[<- |[]]]; eexists; (split; [reflexivity|apply HP; discriminate]). }
  split; [|split; [|split]].
  - split; [constructor; [intros [C|[]]; discriminate|constructor; [intros []|constructor]]|]. cbn. intros m. tauto.
  - split; [constructor; [intros [C|[]]; discriminate|constructor; [intros []|constructor]]|]. cbn. intros m. tauto.
  - reflexivity.
  - intros C. vm_compute in C. discriminate.
Qed.

(** ** The hypotheses can be met *)
Definition ex_gargs : list (text * pyval) := [([102], POther 1 [55]); ([110], PStr [97; 98])].
Example ex_well_named : well_named ex_gargs.
Proof.
  split; [|split].
  - constructor; [intros [C|[]]; discriminate|constructor; [intros []|constructor]].
  - intros a b [<- |[<- |[]]] [<- |[<- |[]]] (l & H); try reflexivity; discriminate.
  - intros k v [E|[E|[]]]; injection E as <- <-; split; cbn; intros C; repeat (destruct C as [C|C]; [discriminate|]); destruct C.
Qed.
(** "x$f-$n" -> "x7-ab"; "$f" stays the number; a missing $q raises. *)
Example ex_resolved : resolve_arguments ex_gargs
  [([1], PStr [120; 36; 102; 45; 36; 110]); ([2], PStr [36; 102]); ([3], POther 9 [36])] =
  Some [([1], PStr [120; 55; 45; 97; 98]); ([2], POther 1 [55]); ([3], POther 9 [36])].
Proof. reflexivity. Qed.
Example ex_raises : resolve_arguments ex_gargs [([1], PStr [36; 113])] = None.
Proof. reflexivity. Qed.
(** "\$1-\$2-\$4" in [a 7] with a second argument defaulting to "b". *)
Example ex_pd : pd_resolve (mkPdGraph [[49; 48]; [55]] [mkHvArg true []; mkHvArg false [98]]) [92; 36; 49; 45; 92; 36; 50; 45; 92; 36; 52] [[50]; [49]; [52]] = [55; 45; 98; 45; 48].
Proof. reflexivity. Qed.

Print Assumptions arguments_substituted.
Print Assumptions unset_variable_raises.
Print Assumptions prefix_names_refuted.
Print Assumptions pd_arguments_substituted.
Print Assumptions pd_prefix_references_refuted.
