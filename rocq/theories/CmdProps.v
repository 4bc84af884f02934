(** C76: what the command line of create_llvm_prof means, and what some of its
    flags do not do. *)
From Coq Require Import Ascii String.
From Verif Require Import Base SymbolModel SymbolProofs MMapModel MMapSpec BinaryIdModel LayoutModel WriterModel WriterSpec PropEndModel PropEndProps GenModel GenSpec GenProps CmdModel CmdSpec.

Lemma is_empty_nil s : is_empty s = true <-> s = [].
Proof. destruct s; cbn; split; congruence. Qed.
Lemma name_eqb_true a b : name_eqb a b = true <-> a = b.
Proof. destruct (name_eqb_spec a b); split; congruence. Qed.
Lemma contains_In c s : contains c s = true <-> In c s.
Proof. unfold contains. rewrite existsb_exists. split; [intros [x [H E]]; apply Z.eqb_eq in E; subst; exact H|]. intros H. exists c. split; [exact H|apply Z.eqb_refl]. Qed.
Lemma at_sign p : is_list_file p = true <-> exists r : name, p = 64 :: r.
Proof.
  destruct p as [|c r]; [split; [discriminate|intros [r E]; discriminate]|]. destruct (Z.eq_dec c 64) as [-> | N]; [split; eauto|].
  split; [|intros [r' E]; congruence]. intros H. exfalso. apply N. destruct c as [|c|c]; try discriminate. repeat (destruct c as [c|c|]; try discriminate). reflexivity.
Qed.

(** Refusals: exactly the ones listed. *)
Lemma ct s x : contains s x = false <-> ~ In s x.
Proof. rewrite <- contains_In. destruct (contains s x); split; congruence. Qed.
Ltac cases_main :=
  repeat match goal with
  | |- context [name_eqb ?a ?b] => destruct (name_eqb_spec a b)
  | |- context [is_empty ?s] => let E := fresh "E" in destruct (is_empty s) eqn:E; [apply is_empty_nil in E|assert (s <> []) by (intros EE; rewrite EE in E; discriminate)]
  | |- context [contains ?c ?s] => let E := fresh "E" in destruct (contains c s) eqn:E; [apply contains_In in E|apply ct in E]
  | |- context [is_list_file ?p] =>
      let E := fresh "E" in destruct (is_list_file p) eqn:E;
      [apply at_sign in E|assert (~ exists r, p = 64 :: r) by (intros EE; apply at_sign in EE; congruence)]
  | |- context [f_ignore_build_id ?f] => destruct (f_ignore_build_id f) eqn:?
  | |- context [f_split_only ?f && f_layout_only ?f] => destruct (f_split_only f) eqn:?, (f_layout_only f) eqn:?
  | |- context [f_prof_sym_list ?f] => destruct (f_prof_sym_list f) eqn:?
  end; cbn [negb andb].

Theorem C76_refused fs f : main fs f = Refuse <-> refused f.
Proof.
  unfold main. split.
  - cases_main; try discriminate; intros _;
      first [ now (apply rf_two_outputs; auto) | now (apply rf_no_output; auto) | now (apply rf_build_id; unfold is_word; auto)
            | now (apply rf_split_layout; unfold is_word; auto) | now (apply rf_several; unfold is_word; auto)
            | now (apply rf_list; unfold is_word; auto) | now (apply rf_format; unfold is_word; auto) | now (apply rf_sym_list; unfold is_word; auto) | idtac ].
  - intros R. destruct R as [A B C|A B|A B|A B C|A B|A B|A B C D|A B C]; unfold is_word in *;
      cases_main; try reflexivity; try congruence; try tauto.
Qed.
Print Assumptions C76_refused.

(** * Splitting *)
Lemma separated_det sep ps t : separated sep ps t -> forall ps', separated sep ps' t -> ps = ps'.
Proof.
  assert (G : forall (p q t u : name), ~ In sep p -> ~ In sep q -> p ++ sep :: t = q ++ sep :: u -> p = q /\ t = u).
  { intros p. induction p as [|a p IH]; intros q t0 u Np Nq E; destruct q as [|b q]; cbn in E.
    - injection E as E. auto.
    - injection E as E1 E2. subst b. destruct Nq. left. reflexivity.
    - injection E as E1 E2. subst a. destruct Np. left. reflexivity.
    - injection E as E1 E2. subst b. destruct (IH q t0 u) as [-> ->]; auto; intros H; [apply Np|apply Nq]; right; exact H. }
  assert (NI : forall (p t : name), In sep (p ++ sep :: t)) by (intros; apply in_app_iff; right; left; reflexivity).
  intros S. induction S as [p Np|p ps t Np S IH]; intros ps' S'.
  - destruct S' as [q Nq|q qs u Nq S']; [reflexivity|]. destruct Np. apply NI.
  - inversion S' as [q Nq E1 E2|q qs u Nq S'' E1 E2]; subst.
    + destruct Nq. apply NI.
    + destruct (G _ _ _ _ Nq Np E2) as [-> ->]. rewrite (IH _ S''). reflexivity.
Qed.
Lemma kept_det {A} (P : A -> Prop) l r : kept P l r -> forall r', kept P l r' -> r = r'.
Proof. intros K. induction K as [|x l r Px K IH|x l r Nx K IH]; intros r' K'; inversion K'; subst; try contradiction; [reflexivity|rewrite (IH _ H3); reflexivity|auto]. Qed.
Lemma kept_filter {A} (P : A -> Prop) (b : A -> bool) l : (forall x, b x = true <-> P x) -> kept P l (filter b l).
Proof. intros H. induction l as [|x l IH]; cbn [filter]; [constructor|]. destruct (b x) eqn:E; [constructor; [apply H, E|exact IH]|]. apply kp_drop; [|exact IH]. intros Hp. apply H in Hp. congruence. Qed.
Lemma StrSplit_separated sep s : forall cur, ~ In sep cur -> separated sep (StrSplit sep cur s) (rev cur ++ s).
Proof.
  induction s as [|c s IH]; intros cur N; cbn [StrSplit].
  - rewrite app_nil_r. constructor. rewrite <- in_rev. exact N.
  - destruct (Z.eqb_spec c sep) as [-> | NE].
    + apply sp_more; [rewrite <- in_rev; exact N|]. exact (IH [] (fun H => H)).
    + replace (rev cur ++ c :: s) with (rev (c :: cur) ++ s) by (cbn [rev]; rewrite <- app_assoc; reflexivity). apply IH. intros [E|H]; [congruence|exact (N H)].
Qed.
(** getline yields the pieces between newlines, except an empty last one. *)
Lemma getlines_split s : forall cur, exists last, StrSplit 10 cur s = getlines cur s ++ last /\ (last = [] \/ last = [[]]).
Proof.
  induction s as [|c s IH]; intros cur; cbn [StrSplit getlines].
  - destruct cur as [|x cur]; [exists [[]]; auto|exists []; rewrite app_nil_r; auto].
  - destruct (c =? 10); [|apply IH]. destruct (IH []) as [l [E H]]. exists l. rewrite E. auto.
Qed.

(** The options name the input files the command line names. *)
Lemma input_names fs f : names_of fs (f_profile f) (List.map fst (input_profiles fs f)).
Proof.
  assert (M : forall (t : Z) (l : list name), List.map fst (List.map (fun pf => (pf, t)) l) = l) by (intros t l; rewrite map_map; cbn [fst]; apply map_id).
  unfold input_profiles. destruct (is_list_file (f_profile f)) eqn:E.
  - apply at_sign in E as [file ->]. cbn [Z.eqb Pos.eqb]. rewrite M. destruct (fs file) as [s|] eqn:F; [|apply no_no_list; exact F].
    destruct (getlines_split s []) as [last [EL HL]]. apply (no_list fs file s (getlines [] s ++ last)); [exact F| |].
    + rewrite <- EL. exact (StrSplit_separated 10 s [] (fun H => H)).
    + match goal with |- kept _ _ (filter ?g _) => set (b := g) end.
      replace (filter b (getlines [] s)) with (filter b (getlines [] s ++ last)).
      * apply kept_filter. intros [|c r]; cbn [b]; [split; [discriminate|intros [H _]; congruence]|]. destruct (Z.eqb_spec c 35) as [-> | N]; cbn [negb]; [split; [discriminate|intros [_ H]; exfalso; eapply H; reflexivity]|]. split; [intros _; split; congruence|reflexivity].
      * rewrite filter_app. destruct HL as [-> | ->]; cbn [filter b]; apply app_nil_r.
  - assert (NL : forall r, f_profile f <> 64 :: r) by (intros r H; assert (X : is_list_file (f_profile f) = true) by (apply at_sign; eauto); congruence).
    assert (R : forall {X} (a b : X), match f_profile f with 64 :: _ => a | _ => b end = b).
    { intros X a b. destruct (f_profile f) as [|c r]; [reflexivity|]. destruct c as [|c|c]; try reflexivity. repeat (destruct c as [c|c|]; try reflexivity). destruct (NL r); reflexivity. }
    set (l := StrSplit 59 [] (f_profile f)).
    match goal with |- names_of _ _ (List.map fst ?t) => replace t with (List.map (fun pf => (pf, 0)) (filter (fun pf : name => match pf with [] => false | _ => true end) l)) end.
    + rewrite M. apply (no_names fs _ l); [exact NL|exact (StrSplit_separated 59 _ [] (fun H => H))|]. apply kept_filter. intros [|c r]; split; congruence.
    + unfold l. clear -NL. destruct (f_profile f) as [|c r]; [reflexivity|]. destruct c as [|c|c]; try reflexivity. repeat (destruct c as [c|c|]; try reflexivity). destruct (NL r); reflexivity.
Qed.
Lemma input_types fs f p : In p (input_profiles fs f) ->
  (forall r, f_profile f <> 64 :: r) /\ snd p = 0 \/ (exists r, f_profile f = 64 :: r) /\ profiler_type (f_profiler f) (snd p).
Proof.
  assert (PT : profiler_type (f_profiler f) (GetProfileTypeFromFlag f)).
  { unfold GetProfileTypeFromFlag, profiler_type, is_word. destruct (name_eqb_spec (f_profiler f) (lit "perf")) as [E|N]; [left; auto|]. destruct (name_eqb_spec (f_profiler f) (lit "perf_spe")) as [E|N']; [right; left; auto|right; right; auto]. }
  destruct (is_list_file (f_profile f)) eqn:E.
  - apply at_sign in E as [file EF]. unfold input_profiles. rewrite EF. intros H. apply in_map_iff in H as [n [<- _]]. right. split; [eauto|exact PT].
  - assert (NL : forall r, f_profile f <> 64 :: r) by (intros r H; assert (X : is_list_file (f_profile f) = true) by (apply at_sign; eauto); congruence).
    intros H. left. split; [exact NL|]. unfold input_profiles in H. destruct (f_profile f) as [|c r]; [apply in_map_iff in H as [n [<- _]]; reflexivity|].
    assert (Q : exists l : list name, In p (List.map (fun pf => (pf, 0)) l)).
    { destruct c as [|c|c]; try (eexists; exact H). repeat (destruct c as [c|c|]; try (eexists; exact H)). destruct (NL r); reflexivity. }
    destruct Q as [l Q]. apply in_map_iff in Q as [n [<- _]]. reflexivity.
Qed.
Theorem C76_names fs p l l' : names_of fs p l -> names_of fs p l' -> l = l'.
Proof.
  intros N N'. destruct N as [file s ls l F S K|file F|p ps l NL S K]; inversion N'; subst; try congruence;
    try (match goal with H : forall r, 64 :: _ <> 64 :: r |- _ => destruct (H _ eq_refl) end);
    try (match goal with H : forall r, 64 :: _ <> 64 :: r |- _ => edestruct H; reflexivity end).
  - rewrite F in H0. injection H0 as EQ. subst s0. rewrite (separated_det _ _ _ S _ H1) in K. exact (kept_det _ _ _ K _ H2).
  - rewrite (separated_det _ _ _ S _ H0) in K. exact (kept_det _ _ _ K _ H1).
Qed.
Print Assumptions C76_names.

Lemma output_is f : output f (if is_empty (f_gcov f) then f_out f else f_gcov f).
Proof. unfold output. destruct (f_gcov f); cbn; [right; auto|left; split; congruence]. Qed.
(** An accepted --format=propeller command line. *)
Theorem C76_propeller fs f :
  ((exists p, main fs f = Propeller p) <-> ~ refused f /\ is_word (f_format f) "propeller") /\
  (forall p, main fs f = Propeller p ->
     output f (po_cluster_out p) /\ po_symorder_out p = f_symorder f /\ po_reorder p = negb (f_split_only f) /\ po_split_functions p = negb (f_layout_only f) /\
     o_binary (po_options p) = f_binary f /\ o_profile_names (po_options p) = [] /\
     o_profiled (po_options p) = Some (f_profiled f) /\ o_ignore_build_id (po_options p) = f_ignore_build_id f /\
     names_of fs (f_profile f) (List.map fst (o_inputs (po_options p))) /\
     forall i, In i (o_inputs (po_options p)) ->
       ((forall r, f_profile f <> 64 :: r) /\ snd i = 0) \/ ((exists r, f_profile f = 64 :: r) /\ profiler_type (f_profiler f) (snd i))).
Proof.
  assert (G : forall p, main fs f = Propeller p -> is_word (f_format f) "propeller" /\ p = CreatePropellerOptionsFromFlags fs f (if is_empty (f_gcov f) then f_out f else f_gcov f)).
  { intros p. unfold main, is_word. set (P := CreatePropellerOptionsFromFlags fs f). clearbody P. cases_main; try discriminate; intros H'; injection H' as <-; auto. }
  split; [split|].
  - intros [p H]. split; [intros R; apply (C76_refused fs) in R; congruence|exact (proj1 (G p H))].
  - intros [NR W]. destruct (main fs f) as [|p|j] eqn:E; [apply C76_refused in E; contradiction|eauto|]. exfalso. revert E. unfold main, is_word in *. rewrite W. cbv zeta.
    replace (name_eqb (lit "propeller") (lit "propeller")) with true by reflexivity.
    repeat match goal with |- (if ?b then _ else _) = _ -> _ => destruct b; try discriminate end.
  - intros p H. destruct (G p H) as [_ ->]. unfold CreatePropellerOptionsFromFlags. cbn [po_cluster_out po_symorder_out po_reorder po_split_functions po_options o_binary o_profile_names o_profiled o_ignore_build_id o_inputs].
    split; [apply output_is|]. do 7 (split; [reflexivity|]). split; [apply input_names|]. intros i Hi. exact (input_types fs f i Hi).
Qed.
Print Assumptions C76_propeller.

(** An accepted command line of another format is passed on as it is. *)
Theorem C76_create fs f j :
  main fs f = Create j <->
  ~ refused f /\ ~ is_word (f_format f) "propeller" /\ is_word (f_format f) (format_word (j_format j)) /\ output f (j_out j) /\
  j_binary j = f_binary f /\ j_profile j = f_profile f /\ j_profiler j = f_profiler f /\ j_sym_list j = f_prof_sym_list f.
Proof.
  split.
  - intros E. split; [intros R; apply (C76_refused fs) in R; congruence|]. revert E. pose proof (output_is f) as O. revert O. unfold main, is_word.
    set (out := if is_empty (f_gcov f) then f_out f else f_gcov f). clearbody out. intros O. cases_main; try discriminate; intros H'; injection H' as <-; cbn; auto 10.
  - intros [NR [NP [FW [O [B [P [PR SL]]]]]]]. destruct (main fs f) as [|p|j'] eqn:E; [apply C76_refused in E; contradiction|destruct (proj1 (proj1 (C76_propeller fs f)) (ex_intro _ p E)); contradiction|].
    f_equal. revert E. pose proof (output_is f) as O'. revert O'. unfold main, is_word in *. set (out := if is_empty (f_gcov f) then f_out f else f_gcov f). clearbody out.
    assert (OE : output f out -> out = j_out j) by (unfold output in *; intros [[X Y]|[X Y]]; destruct O as [[X' Y']|[X' Y']]; congruence).
    intros O'. destruct j as [jb jp jr jf jo js]. cbn [j_binary j_profile j_profiler j_format j_out j_sym_list] in *. specialize (OE O'). subst.
    cases_main; try discriminate; intros H'; injection H' as <-; f_equal; destruct jf; cbn [format_word] in FW; try reflexivity; rewrite FW in *; discriminate.
Qed.
Print Assumptions C76_create.

(** * Runs *)
Definition with_ignore_build_id (b : bool) (f : flags) : flags :=
  Flags (f_profile f) (f_profiler f) (f_format f) (f_out f) (f_gcov f) (f_symorder f) (f_binary f) (f_profiled f) b (f_split_only f) (f_layout_only f) (f_prof_sym_list f).
Definition with_profiler (n : name) (f : flags) : flags :=
  Flags (f_profile f) n (f_format f) (f_out f) (f_gcov f) (f_symorder f) (f_binary f) (f_profiled f) (f_ignore_build_id f) (f_split_only f) (f_layout_only f) (f_prof_sym_list f).

(** A refused command line writes nothing and returns 1; so does a Propeller run
    that fails; the other formats return -1 then. *)
Theorem C76_exit dbg verbose v scores W image_of S create fs f :
  let r := run dbg verbose v scores W image_of S create fs f in
  (refused f -> r = Ok (1, [])) /\
  (forall p, main fs f = Propeller p ->
     let g := GeneratePropellerProfiles dbg verbose v scores W (po_options p) (image_of (f_binary f)) (apply_options p S) in
     (forall e, g = Ok (inr e) -> r = Ok (1, [])) /\
     (forall cc ld, g = Ok (inl (cc, ld)) -> exists o files, output f o /\ r = Ok (0, files) /\ kept (fun e => fst e <> []) [(o, cc); (f_symorder f, ld)] files)) /\
  (forall j, main fs f = Create j ->
     (create j = None -> r = Ok (-1, [])) /\ (forall b, create j = Some b -> exists o, output f o /\ r = Ok (0, [(o, b)]))).
Proof.
  intros r. unfold r, run. split; [intros R; apply (C76_refused fs) in R; rewrite R; reflexivity|]. split.
  - intros p E. destruct (proj2 (C76_propeller fs f) p E) as [O [SO [_ [_ [B _]]]]]. rewrite E, B. cbv zeta. split; [intros e ->; reflexivity|]. intros cc ld ->. cbn [obind].
    eexists _, _. split; [exact O|]. split; [reflexivity|]. rewrite SO. apply kept_filter. intros [[|c0 r0] e]; cbn; split; congruence.
  - intros j E. rewrite E. apply C76_create in E. split; [intros ->; reflexivity|]. intros b ->. exists (j_out j). split; [apply E|reflexivity].
Qed.
Print Assumptions C76_exit.

(** The layout splits functions unless --propeller_layout_only is given, reorders
    the hot blocks unless --propeller_split_only is, and is otherwise as the
    other settings have it. *)
Theorem C76_layout fs f p S : main fs f = Propeller p ->
  let S' := apply_options p S in
  (s_split_functions S' = true <-> f_layout_only f = false) /\ (s_reorder S' = true <-> f_split_only f = false) /\ s_text_only S' = s_text_only S /\
  s_score S' = s_score S /\
  s_ifr S' = s_ifr S /\
  s_chain_split S' = s_chain_split S /\
  s_threshold S' = s_threshold S /\
  s_thr S' = s_thr S /\
  s_clustering S' = s_clustering S /\
  s_dens S' = s_dens S /\
  s_min S' = s_min S /\
  s_reject S' = s_reject S /\
  s_ord S' = s_ord S /\
  s_names S' = s_names S /\
  s_falls S' = s_falls S /\
  s_cfgs S' = s_cfgs S /\
  s_addr S' = s_addr S.
Proof.
  intros E. apply (proj2 (C76_propeller fs f)) in E. destruct p as [po pc ps psp pre]. cbn in E |- *. split; [|split; [|tauto]].
  all: destruct E as [_ [_ [E1 [E2 _]]]]; subst; first [destruct (f_layout_only f); split; (reflexivity || discriminate)|destruct (f_split_only f); split; (reflexivity || discriminate)].
Qed.
Print Assumptions C76_layout.

(** Some errors of a Propeller run cannot come from a command line. *)
Theorem C76_errors dbg verbose v scores W S fs f p I :
  main fs f = Propeller p ->
  let g := GeneratePropellerProfiles dbg verbose v scores W (po_options p) I S in
  g <> Ok (inr EDeprecated) /\ g <> Ok (inr EMixed) /\ g <> Ok (inr EUnsupported) /\
  (g = Ok (inr ENoInput) <-> names_of fs (f_profile f) []).
Proof.
  intros E. destruct (proj2 (C76_propeller fs f) p E) as [_ [_ [_ [_ [_ [DN [_ [_ [NM TY]]]]]]]]]. set (o := po_options p) in *. clearbody o. intros g.
  assert (K : exists t, (t = 1 \/ t = 2) /\ forall i, In i (o_inputs o) -> kind (snd i) = t).
  { destruct (is_list_file (f_profile f)) eqn:EL.
    - apply at_sign in EL as [file EL]. assert (X : exists t, profiler_type (f_profiler f) t /\ forall i, In i (o_inputs o) -> snd i = t).
      { destruct (o_inputs o) as [|i0 is].
        - exists (GetProfileTypeFromFlag f). split; [|intros i []]. unfold GetProfileTypeFromFlag, profiler_type, is_word.
          destruct (name_eqb_spec (f_profiler f) (lit "perf")); [left; auto|]. destruct (name_eqb_spec (f_profiler f) (lit "perf_spe")); [right; left; auto|right; right; auto].
        - exists (snd i0). assert (T : forall i, In i (i0 :: is) -> profiler_type (f_profiler f) (snd i)) by (intros i Hi; destruct (TY i Hi) as [[NL _]|[_ T]]; [destruct (NL file EL)|exact T]).
          split; [exact (T i0 (or_introl eq_refl))|]. intros i Hi. pose proof (T i Hi) as A. pose proof (T i0 (or_introl eq_refl)) as B. unfold profiler_type, is_word in *.
          destruct A as [[A A']|[[A A']|[A1 [A2 A']]]], B as [[B B']|[[B B']|[B1 [B2 B']]]]; try congruence; exfalso; rewrite A in B; discriminate. }
      destruct X as [t [T1 T2]]. exists (kind t). split; [|intros i Hi; rewrite (T2 i Hi); reflexivity]. destruct T1 as [[_ ->]|[[_ ->]|[_ [_ ->]]]]; cbn; auto.
    - exists 1. split; [auto|]. intros i Hi. destruct (TY i Hi) as [[_ ->]|[[r' R] _]]; [reflexivity|]. assert (X : is_list_file (f_profile f) = true) by (apply at_sign; eauto). congruence. }
  destruct K as [t [Ht AL]]. destruct (C70_type o) as [T1 [T2 T3]]. unfold g, GeneratePropellerProfiles. rewrite DN.
  assert (NI : o_inputs o = [] <-> names_of fs (f_profile f) []).
  { split; [intros EI; rewrite EI in NM; exact NM|]. intros N. pose proof (C76_names _ _ _ _ NM N) as Q. destruct (o_inputs o); [reflexivity|discriminate]. }
  destruct (o_inputs o) as [|i is] eqn:EI.
  { rewrite (proj2 T1 eq_refl). split; [discriminate|]. split; [discriminate|]. split; [discriminate|]. split; [intros _; apply NI; reflexivity|reflexivity]. }
  assert (ET : GetProfileType o = inl t) by (apply T3; split; [congruence|exact AL]). rewrite ET.
  assert (NE : forall (X : outcome ((text * text) + gen_error)), X <> Ok (inr EDeprecated) /\ X <> Ok (inr EMixed) /\ X <> Ok (inr EUnsupported) /\ X <> Ok (inr ENoInput) ->
    X <> Ok (inr EDeprecated) /\ X <> Ok (inr EMixed) /\ X <> Ok (inr EUnsupported) /\ (X = Ok (inr ENoInput) <-> names_of fs (f_profile f) [])).
  { intros X [A [B [C D]]]. repeat (split; [assumption|]). split; [contradiction|]. intros N. apply NI in N. discriminate. }
  assert (CP : forall addrs agg, let X := let! r := ComputeProfile dbg verbose v scores (im_binary I) S addrs agg in Ok (match r with Some out => inl out | None => inr EEdges end) in
    X <> Ok (inr EDeprecated) /\ X <> Ok (inr EMixed) /\ X <> Ok (inr EUnsupported) /\ X <> Ok (inr ENoInput)).
  { intros addrs agg. cbv zeta. destruct (ComputeProfile dbg verbose v scores (im_binary I) S addrs agg) as [[out|]| |]; cbn [obind]; (split; [discriminate|]); (split; [discriminate|]); split; discriminate. }
  assert (LP : forall A bid mn (agg : mmaps -> profile -> A -> A) fuel left st (r : A) e, profile_loop W bid mn agg fuel left st r = inr e -> e = ERead).
  { intros A bid mn agg fuel. induction fuel as [|fuel IH]; intros left st r e H; cbn [profile_loop] in H; [discriminate|]. destruct (GetNext W left) as [[| |c] left']; [congruence|discriminate|].
    destruct (BuildPerfDataReader W bid c mn) as [m|re]; [|eapply IH; exact H]. destruct c as [d|]; eapply IH; exact H. }
  apply NE. clear NE. destruct Ht as [-> | ->]; cbn [Z.eqb Pos.eqb].
  - unfold AggregateLbrData. destruct (profile_loop W _ _ _ _ _ _ _) as [[st [br ft]]|e] eqn:EP; [|apply LP in EP; subst e; (split; [discriminate|]); (split; [discriminate|]); split; discriminate].
    cbv zeta. destruct (ps_parsed _ =? 0); [(split; [discriminate|]); (split; [discriminate|]); split; discriminate|]. unfold CheckLbrAddress. destruct (w_disassemble W); [apply CP|(split; [discriminate|]); (split; [discriminate|]); split; discriminate].
  - unfold AggregateBranchFrequencies. destruct (profile_loop W _ _ _ _ _ _ _) as [[st [tk nt]]|e] eqn:EP; [|apply LP in EP; subst e; (split; [discriminate|]); (split; [discriminate|]); split; discriminate].
    cbv zeta. destruct (ps_parsed _ =? 0); [(split; [discriminate|]); (split; [discriminate|]); split; discriminate|]. apply CP.
Qed.
Print Assumptions C76_errors.

(** A list file that is not there is a run without input, and fails as such. *)
Theorem C76_missing_list dbg verbose v scores W image_of S create fs f file :
  ~ refused f -> is_word (f_format f) "propeller" -> f_profile f = 64 :: file -> fs file = None ->
  run dbg verbose v scores W image_of S create fs f = Ok (1, []).
Proof.
  intros NR W' EP EF. destruct (proj2 (proj1 (C76_propeller fs f)) (conj NR W')) as [p E].
  apply (proj1 (proj1 (proj2 (C76_exit dbg verbose v scores W image_of S create fs f)) p E) ENoInput).
  apply (proj2 (proj2 (proj2 (C76_errors dbg verbose v scores W (apply_options p S) fs f p (image_of (f_binary f)) E)))). rewrite EP. constructor. exact EF.
Qed.

(** Which maps of a profile are those of the binary: the given name, else the
    names with the binary's build id; --ignore_build_id has no part in it. *)
Theorem C76_looked_for fs f p bid d ns : main fs f = Propeller p ->
  (looked_for (po_options p) bid d ns <->
   (f_profiled f <> [] /\ ns = [f_profiled f]) \/
   (f_profiled f = [] /\ bid <> [] /\ ns <> [] /\ NoDup ns /\ forall n, In n ns <-> listed d bid n)).
Proof.
  intros E. destruct (proj2 (C76_propeller fs f) p E) as [_ [_ [_ [_ [_ [_ [EP _]]]]]]]. split.
  - intros L. destruct L as [n E1 N|E1 _ _|ns [E1|[E1 _]] B N1 N2 N3]; rewrite EP in E1; try discriminate; injection E1 as E1.
    + left. rewrite E1. auto.
    + right. rewrite E1. auto.
  - intros [[N ->]|[N [B [N1 [N2 N3]]]]].
    + apply lf_user; [exact EP|exact N].
    + apply lf_build_id; try assumption. left. rewrite EP, N. reflexivity.
Qed.
Print Assumptions C76_looked_for.

(** "Ignore build id, use file name to match data in perfdata file": the flag
    changes nothing. *)
Theorem C76_ignore_build_id_works_refuted dbg verbose v scores W image_of S create fs f b :
  is_word (f_format f) "propeller" ->
  run dbg verbose v scores W image_of S create fs (with_ignore_build_id b f) = run dbg verbose v scores W image_of S create fs f.
Proof.
  intros E. unfold run, main, is_word in *. destruct f as [pr pl fm ou gc so bi pd ib sp la sy]. cbn [with_ignore_build_id f_profile f_profiler f_format f_out f_gcov f_symorder f_binary f_profiled f_ignore_build_id f_split_only f_layout_only f_prof_sym_list] in *. subst fm.
  replace (name_eqb (lit "propeller") (lit "propeller")) with true by reflexivity. cbn [negb]. rewrite !andb_false_r.
  destruct (negb (is_empty gc) && negb (is_empty ou) && negb (name_eqb ou gc)); [reflexivity|]. cbv zeta. destruct (is_empty _); [reflexivity|]. destruct (sp && la); [reflexivity|].
  unfold CreatePropellerOptionsFromFlags, GeneratePropellerProfiles, AggregateLbrData, AggregateBranchFrequencies, ResolveMmapName, GetProfileType, input_profiles, apply_options, GetProfileTypeFromFlag.
  cbn [po_options o_profile_names o_inputs o_binary o_profiled o_ignore_build_id po_cluster_out po_symorder_out po_reorder po_split_functions
       f_profile f_profiler f_format f_out f_gcov f_symorder f_binary f_profiled f_ignore_build_id f_split_only f_layout_only f_prof_sym_list].
  reflexivity.
Qed.
Print Assumptions C76_ignore_build_id_works_refuted.

(** --profiler only counts together with a list file: "--profiler=perf_spe
    --profile=f" is read as LBR. *)
Theorem C76_profiler_works_refuted dbg verbose v scores W image_of S create fs f n :
  is_word (f_format f) "propeller" -> (forall r, f_profile f <> 64 :: r) ->
  run dbg verbose v scores W image_of S create fs (with_profiler n f) = run dbg verbose v scores W image_of S create fs f /\
  forall p, main fs f = Propeller p -> o_inputs (po_options p) <> [] -> GetProfileType (po_options p) = inl 1.
Proof.
  intros E NL. split.
  - assert (Q : forall g, f_profile g = f_profile f -> input_profiles fs g = List.map (fun pf => (pf, 0)) (filter (fun pf : name => match pf with [] => false | _ => true end) (StrSplit 59 [] (f_profile f)))).
    { intros g EG. unfold input_profiles. rewrite EG. destruct (f_profile f) as [|c r]; [reflexivity|]. destruct c as [|c|c]; try reflexivity. repeat (destruct c as [c|c|]; try reflexivity). destruct (NL r); reflexivity. }
    assert (M : main fs (with_profiler n f) = main fs f).
    { unfold main, CreatePropellerOptionsFromFlags. rewrite (Q (with_profiler n f) eq_refl), (Q f eq_refl). unfold is_word in E. destruct f as [pr pl fm ou gc so bi pd ib sp la sy].
      cbn [with_profiler f_profile f_profiler f_format f_out f_gcov f_symorder f_binary f_profiled f_ignore_build_id f_split_only f_layout_only f_prof_sym_list] in *. subst fm.
      replace (name_eqb (lit "propeller") (lit "propeller")) with true by reflexivity. reflexivity. }
    unfold run. rewrite M. reflexivity.
  - intros p H NE. destruct (proj2 (C76_propeller fs f) p H) as [_ [_ [_ [_ [_ [_ [_ [_ [_ TY]]]]]]]]]. apply (proj2 (proj2 (C70_type (po_options p)))). split; [exact NE|].
    intros i Hi. destruct (TY i Hi) as [[_ ->]|[[r R] _]]; [reflexivity|destruct (NL r R)].
Qed.
Print Assumptions C76_profiler_works_refuted.

(** The files of GenProps, named by a list file with a comment and an empty line,
    or one after the other. *)
Definition x_list : list Z := lit "# runs" ++ [10] ++ g_file 1 ++ [10; 10] ++ g_file 2 ++ [10] ++ g_file 3 ++ [10] ++ g_file 4.
Definition x_fs (n : name) : option (list Z) := if name_eqb n (lit "list") then Some x_list else None.
Definition x_flags (profile profiler format : name) (ign : bool) : flags :=
  Flags profile profiler format (lit "cc") [] (lit "ld") [47; 97] [] ign false false false.
Definition x_semi : name := g_file 1 ++ [59] ++ g_file 2 ++ [59; 59] ++ g_file 3 ++ [59] ++ g_file 4.
Definition x_run (f : flags) := run false false V1 e_scores g_world (fun _ => g_image) (e_settings true) (fun j => Some (j_profile j)) x_fs f.
Example C76_nonvacuous :
  lit "perf_spe" = [112; 101; 114; 102; 95; 115; 112; 101] /\ lit "propeller" = [112; 114; 111; 112; 101; 108; 108; 101; 114] /\
  input_profiles x_fs (x_flags (64 :: lit "list") (lit "perf_spe") [] false) = [(g_file 1, 2); (g_file 2, 2); (g_file 3, 2); (g_file 4, 2)] /\
  input_profiles x_fs (x_flags x_semi (lit "perf_spe") [] false) = [(g_file 1, 0); (g_file 2, 0); (g_file 3, 0); (g_file 4, 0)] /\
  ~ refused (x_flags x_semi (lit "perf") (lit "propeller") true) /\
  match x_run (x_flags x_semi (lit "perf") (lit "propeller") true) with
  | Ok (0, [(cc, t); (ld, _)]) => cc = lit "cc" /\ ld = lit "ld" /\ exists es, read_file t = Some es /\ List.length es = 2%nat
  | _ => False
  end /\
  x_run (x_flags (64 :: lit "missing") (lit "perf") (lit "propeller") false) = Ok (1, []) /\
  refused (x_flags x_semi (lit "perf") (lit "text") false) /\
  x_run (x_flags (lit "a") (lit "text") (lit "extbinary") false) = Ok (0, [(lit "cc", lit "a")]).
Proof.
  split; [reflexivity|]. split; [reflexivity|]. split; [vm_compute; reflexivity|]. split; [vm_compute; reflexivity|].
  split. { intros R. assert (M : main x_fs (x_flags x_semi (lit "perf") (lit "propeller") true) <> Refuse) by (vm_compute; discriminate). apply M, C76_refused, R. }
  split. { set (r := x_run _). vm_compute in r. subst r. cbv beta iota. split; [reflexivity|]. split; [reflexivity|]. eexists. split; vm_compute; reflexivity. }
  split; [vm_compute; reflexivity|]. split; [apply (C76_refused x_fs); vm_compute; reflexivity|vm_compute; reflexivity].
Qed.
