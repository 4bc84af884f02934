(** Flattening, proofs part 5: the whole map. *)
From Verif Require Import Base AssocFold SymbolModel SymbolSpec SymbolProofs AttribProofs AfdoModel AfdoProofs
  AfdoReadProofs FlattenModel FlattenSpec FlattenPureProofs FlattenMapProofs FlattenNestProofs FlattenTopProofs.

Lemma next_name_spec cur names :
  match next_name cur names with
  | None => forall e, In e names -> after cur (fst e) = false
  | Some b => In b names /\ after cur (fst b) = true /\
      forall e, In e names -> after cur (fst e) = true -> name_ltb (fst e) (fst b) = false
  end.
Proof.
  unfold next_name.
  set (step := fun best e => if after cur (fst e) then match best with None => Some e | Some b => if name_ltb (fst e) (fst b) then Some e else best end else best).
  assert (G : forall names (P : name * nat -> Prop) best,
     (forall e, P e -> match best with
                       | None => after cur (fst e) = false
                       | Some b => after cur (fst e) = true -> name_ltb (fst e) (fst b) = false end) ->
     match best with Some b => P b /\ after cur (fst b) = true | None => True end ->
     match fold_left step names best with
     | None => forall e, P e \/ In e names -> after cur (fst e) = false
     | Some b => (P b \/ In b names) /\ after cur (fst b) = true /\
         forall e, P e \/ In e names -> after cur (fst e) = true -> name_ltb (fst e) (fst b) = false
     end).
  { clear names. induction names as [|x names IH]; intros P best H1 H2; cbn [fold_left].
    - destruct best as [b|].
      + destruct H2 as [Pb Ab]. split; [auto|]. split; [exact Ab|]. intros e [Pe|[]] Ae. apply H1; auto.
      + intros e [Pe|[]]. apply H1; exact Pe.
    - specialize (IH (fun e => P e \/ e = x) (step best x)).
      assert (Q1 : forall e, P e \/ e = x -> match step best x with
                       | None => after cur (fst e) = false
                       | Some b => after cur (fst e) = true -> name_ltb (fst e) (fst b) = false end).
      { intros e [Pe| ->]; unfold step.
        - specialize (H1 e Pe). destruct (after cur (fst x)) eqn:Ax; [|exact H1]. destruct best as [b|].
          + destruct (name_ltb (fst x) (fst b)) eqn:Lt; [|exact H1]. intros Ae. specialize (H1 Ae).
            destruct (name_ltb (fst e) (fst x)) eqn:Q; [|reflexivity]. rewrite (name_ltb_trans _ _ _ Q Lt) in H1. discriminate.
          + intros Ae. congruence.
        - destruct (after cur (fst x)) eqn:Ax.
          + destruct best as [b|]; [|intros _; apply name_ltb_irrefl].
            destruct (name_ltb (fst x) (fst b)) eqn:Lt; [intros _; apply name_ltb_irrefl|intros _; exact Lt].
          + destruct best as [b|]; [congruence|reflexivity]. }
      assert (Q2 : match step best x with Some b => (P b \/ b = x) /\ after cur (fst b) = true | None => True end).
      { unfold step. destruct (after cur (fst x)) eqn:Ax.
        - destruct best as [b|]; [|auto]. destruct (name_ltb (fst x) (fst b)); [auto|]. destruct H2; auto.
        - destruct best as [b|]; [|auto]. destruct H2; auto. }
      specialize (IH Q1 Q2). destruct (fold_left step names (step best x)) as [b|].
      + destruct IH as (A & B & C). split; [cbn [In]; intuition congruence|]. split; [exact B|].
        intros e [Pe|[<-|Ie]] Ae; apply C; auto.
      + intros e [Pe|[<-|Ie]]; apply IH; auto. }
  specialize (G names (fun _ => False) None). destruct (fold_left step names None) as [b|].
  - destruct G as (A & B & C); [intros e []|exact I|]. split; [tauto|]. split; [exact B|]. intros e Ie. apply C. auto.
  - intros e Ie. apply G; [intros ? []|exact I|auto].
Qed.

Lemma filter_lt {A} (P Q : A -> bool) l x : (forall y, P y = true -> Q y = true) -> In x l -> Q x = true -> P x = false ->
  (length (filter P l) < length (filter Q l))%nat.
Proof.
  intros H. assert (Le : forall l, (length (filter P l) <= length (filter Q l))%nat).
  { clear l. induction l as [|y l IH]; cbn [filter]; [lia|]. destruct (P y) eqn:Ey; [rewrite (H y Ey); cbn [length]; lia|].
    destruct (Q y); cbn [length]; lia. }
  induction l as [|y l IH]; intros I0 Qx Px; [destruct I0|]. cbn [filter]. destruct I0 as [->|I0].
  - rewrite Qx, Px. cbn [length]. specialize (Le l). lia.
  - specialize (IH I0 Qx Px). destruct (P y) eqn:Ey; [rewrite (H y Ey); cbn [length]; lia|]. destruct (Q y); cbn [length]; lia.
Qed.

Lemma height_node q : forall s x, node_at s q = Some x -> (height x <= height s)%nat.
Proof.
  induction q as [|key q IH]; intros s x N; cbn [node_at] in N; [assert (s = x) as -> by congruence; lia|].
  destruct (aget callsite_eqb key (s_calls s)) as [c|] eqn:E; [|discriminate]. specialize (IH c x N).
  apply aget_In in E; [|apply callsite_eqb_spec]. apply height_child in E. lia.
Qed.

Section All.
  Variable k : nat.
  Hypothesis kpos : (0 < k)%nat.
  Variables (obs : list (Z * pinfo) -> Z) (F : name).
  Hypothesis obs_nil : obs [] = 0.
  Hypothesis obs_add : forall d s, pos_ok d -> pos_ok s -> eqm (obs (pos_add d s)) (obs d + obs s).
  Variable R : name -> callsite -> Prop.
  Variable NAMES : list name.
  Notation Nm := (fun n => In n NAMES).
  Hypothesis quiet : forall key h pos, R F key -> obs (flatten_pos (fst key) (snd key) h pos) = obs pos.
  Hypothesis R_name : forall x key, R x key -> Nm (snd key).
  Notation msum := (map_sum obs F).

  Theorem all_flatten : forall fuel cur num m, smap_ok m -> akm R m ->
    (forall n, In n (akeys (sm_names m)) -> In n NAMES) ->
    (forall j q, (j < length (sm_heap m))%nat -> after cur (rootname m j) = false -> S (length q) = k -> calls_of m j q = []) ->
    (length (filter (after cur) NAMES) < fuel)%nat ->
    exists num' m', flatten_all k fuel cur num m = Ok (num', m') /\ good k R Nm m m' /\
      (forall j q, S (length q) = k -> calls_of m' j q = []) /\
      (forall j q key c, S (length q) = k -> In (key, c) (calls_of m j q) -> tgt_at m' j q key) /\
      eqm (msum m') (msum m).
  Proof.
    induction fuel as [|fuel IH]; intros cur num m W A HN Inv Hf; [lia|].
    cbn [flatten_all]. pose proof (next_name_spec cur (sm_names m)) as NS.
    destruct (next_name cur (sm_names m)) as [[n i]|].
    2:{ assert (Z : forall j q, S (length q) = k -> calls_of m j q = []).
        { intros j q Lq. destruct (lt_dec j (length (sm_heap m))) as [Lj|Lj].
          - apply Inv; auto. assert (I0 : In (rootname m j) (akeys (sm_names m))).
            { unfold rootname. apply nth_In. unfold akeys. rewrite map_length, ok_len by exact W. exact Lj. }
            apply in_map_iff in I0. destruct I0 as (e & E & I0). rewrite <- E. apply NS. exact I0.
          - unfold calls_of, node_get. replace (nth_error (sm_heap m) j) with (@None symbol) by (symmetry; apply nth_error_None; lia). reflexivity. }
        exists num, m. split; [reflexivity|]. split; [apply good_refl; auto|]. split; [exact Z|].
        split; [intros j q key c Lq I0; rewrite (Z j q Lq) in I0; destruct I0|apply eqm_refl]. }
    destruct NS as (I0 & An & Min). cbn [fst] in *.
    assert (Ei : aget name_eqb n (sm_names m) = Some i).
    { apply (aget_NoDup_In name_eqb name_eqb_spec); [apply W|exact I0]. }
    pose proof (ok_range m n i W Ei) as Li. destruct (ok_index m n i W Ei) as [_ Rn].
    destruct (nth_error (sm_heap m) i) as [s|] eqn:Es; [|apply nth_error_None in Es; lia].
    assert (Ns : node_get m i [] = Some s) by (unfold node_get; rewrite Es; reflexivity).
    assert (HB : hbound k (height s) i m).
    { intros q key c Lq Ic. unfold calls_of, node_get in Ic. rewrite Es in Ic.
      destruct (node_at s q) as [x|] eqn:Ex; [|destruct Ic]. apply height_node in Ex. apply height_child in Ic. lia. }
    destruct (top_flatten k kpos obs F obs_nil obs_add R Nm quiet R_name (height s) (k + height s) 1 i [] m s W A Ns eq_refl
                ltac:(lia) HB ltac:(lia)) as (d & m1 & E1 & G1 & C1 & S1).
    rewrite E1. cbn [obind]. pose proof G1 as (W1 & A1 & X1 & R1).
    assert (Frm : forall j q, S (length q) = k -> j <> i -> calls_of m1 j q = calls_of m j q).
    { intros j q Lq Ne. specialize (C1 j q Lq). unfold under in C1. destruct (Nat.eqb_spec j i); [congruence|]. exact C1. }
    assert (At : forall q, S (length q) = k -> calls_of m1 i q = [] /\ forall key c, In (key, c) (calls_of m i q) -> tgt_at m1 i q key).
    { intros q Lq. specialize (C1 i q Lq). unfold under in C1. rewrite Nat.eqb_refl in C1. exact C1. }
    destruct (IH (Some n) (if d =? 0 then num else num + 1) m1 W1 A1) as (num' & m' & E2 & G2 & Z2 & T2 & S2).
    { intros g Ig. destruct X1 as (e & Ee & Fe). unfold akeys in Ig. rewrite Ee, map_app in Ig. apply in_app_or in Ig.
      destruct Ig as [Ig|Ig]; [apply HN; exact Ig|]. apply in_map_iff in Ig. destruct Ig as (y & <- & Iy).
      rewrite Forall_forall in Fe. apply Fe. exact Iy. }
    { intros j q Lj Aj Lq. destruct (Nat.eq_dec j i) as [->|Ne]; [apply At; exact Lq|]. rewrite (Frm j q Lq Ne).
      destruct (lt_dec j (length (sm_heap m))) as [Lj'|Lj'].
      - rewrite (rootname_ext Nm m m1 j W X1 Lj') in Aj. cbn [after] in Aj.
        apply Inv; auto. destruct (after cur (rootname m j)) eqn:Ac; [|reflexivity]. exfalso.
        assert (Ij : nth_error (sm_names m) j = Some (rootname m j, j)).
        { destruct W as [[N1 N2] _]. destruct (nth_error (sm_names m) j) as [[g j']|] eqn:Eg.
          - assert (j' = j).
            { pose proof (map_nth_error snd _ _ Eg) as Q. cbn [snd] in Q. rewrite N2 in Q.
              apply (nth_error_nth _ _ O) in Q. rewrite seq_nth in Q by exact Lj'. lia. }
            subst j'. f_equal. f_equal. unfold rootname. symmetry. apply nth_error_nth. apply (map_nth_error fst) in Eg. exact Eg.
          - apply nth_error_None in Eg. rewrite <- (seq_length (length (sm_heap m)) 0), <- N2, map_length in Lj'. lia. }
        apply nth_error_In in Ij. specialize (Min _ Ij Ac). cbn [fst] in Min.
        assert (Q : rootname m j = n) by (apply name_ltb_total; auto).
        assert (Ej : aget name_eqb n (sm_names m) = Some j).
        { rewrite <- Q. apply (aget_NoDup_In name_eqb name_eqb_spec); [apply W|exact Ij]. }
        congruence.
      - unfold calls_of, node_get. replace (nth_error (sm_heap m) j) with (@None symbol) by (symmetry; apply nth_error_None; lia). reflexivity. }
    { assert (Lt : (length (filter (after (Some n)) NAMES) < length (filter (after cur) NAMES))%nat).
      { apply (filter_lt _ _ NAMES n).
        - intros y Ey. cbn [after] in Ey. destruct cur as [c|]; [|reflexivity]. cbn [after] in *. eapply name_ltb_trans; eauto.
        - apply HN. apply (in_map fst) in I0. exact I0.
        - exact An.
        - cbn [after]. apply name_ltb_irrefl. }
      lia. }
    exists num', m'. split; [exact E2|]. split; [apply (good_trans k R Nm m m1); auto|]. split; [exact Z2|].
    split; [|apply (eqm_trans _ (msum m1)); auto].
    intros j q key c Lq Ic. destruct (Nat.eq_dec j i) as [->|Ne].
    - apply (grows_tgt k R Nm m1 m' i q key G2); [lia|]. destruct (At q Lq) as [_ H]. eapply H; exact Ic.
    - apply (T2 j q key c Lq). rewrite (Frm j q Lq Ne). exact Ic.
  Qed.
End All.

(** *** From the observable hypotheses *)
Lemma all_keys_of P F NAMES s : forall n, ~ calls_in P F n s -> (forall g, In g (callee_names s) -> In g NAMES) ->
  all_keys (fun x key => (x = F -> ~ P key) /\ In (snd key) NAMES) n s.
Proof.
  induction s as [h t ts pos cs IH] using symbol_ind'. intros n Q HN. apply all_keys_iff. cbn [s_calls].
  cbn [calls_in callee_names] in *.
  assert (G : forall l, (forall x, In x l -> In x cs) ->
     ~ fold_right (fun kc a => (n = F /\ P (fst kc)) \/ calls_in P F (snd (fst kc)) (snd kc) \/ a) False l ->
     (forall g, In g (flat_map (fun kc => snd (fst kc) :: callee_names (snd kc)) l) -> In g NAMES) ->
     forall key c, In (key, c) l -> ((n = F -> ~ P key) /\ In (snd key) NAMES) /\
       all_keys (fun x key => (x = F -> ~ P key) /\ In (snd key) NAMES) (snd key) c).
  { clear Q HN. induction l as [|[k0 c0] l IHl]; intros Inc Q HN key c I0; [destruct I0|].
    cbn [fold_right flat_map fst snd] in *. destruct I0 as [E|I0].
    - assert (k0 = key /\ c0 = c) as [-> ->] by (split; congruence). split; [split; [tauto|]|].
      + apply HN. left. reflexivity.
      + apply (IH key c); [apply Inc; left; reflexivity|tauto|]. intros g Ig. apply HN. cbn [app]. right. apply in_or_app. left; exact Ig.
    - apply IHl; auto.
      + intros x Ix. apply Inc. right; exact Ix.
      + intros g Ig. apply HN. cbn [app]. right. apply in_or_app. right; exact Ig. }
  apply (G cs); auto.
Qed.
Lemma callee_calls_in g s : In g (callee_names s) -> forall n, exists F, calls_in (fun key => snd key = g) F n s.
Proof.
  induction s as [h t ts pos cs IH] using symbol_ind'. intros I0 n. cbn [callee_names calls_in] in *.
  assert (G : forall l, (forall x, In x l -> In x cs) ->
     In g (flat_map (fun kc => snd (fst kc) :: callee_names (snd kc)) l) ->
     exists F, fold_right (fun kc a => (n = F /\ snd (fst kc) = g) \/ calls_in (fun key => snd key = g) F (snd (fst kc)) (snd kc) \/ a) False l).
  { clear I0. induction l as [|[k0 c0] l IHl]; intros Inc I0; [destruct I0|]. cbn [flat_map fst snd fold_right app] in *.
    destruct I0 as [E|I0]; [exists n; auto|]. apply in_app_or in I0. destruct I0 as [I0|I0].
    - destruct (IH k0 c0 (Inc _ (or_introl eq_refl)) I0 (snd k0)) as [F H]. exists F. auto.
    - destruct IHl as [F H]; [intros x Ix; apply Inc; right; exact Ix|exact I0|]. exists F. auto. }
  apply (G cs); auto.
Qed.

Lemma inst_obs_add l d s : pos_ok d -> pos_ok s -> eqm (inst_obs l (pos_add d s)) (inst_obs l d + inst_obs l s).
Proof.
  intros Pd [Ns Fs]. unfold inst_obs. rewrite pos_add_foldin, aget_foldin by auto using Z.eqb_spec. unfold getd.
  destruct (aget Z.eqb l s) as [i|]; [|rewrite Z.add_0_r; apply eqm_refl].
  destruct (aget Z.eqb l d) as [j|]; cbn [pinfo_add p_ninst pinfo0]; unfold add64; apply eqm_u64.
Qed.
Lemma count_obs_add l d s : pos_ok d -> pos_ok s -> eqm (count_obs l (pos_add d s)) (count_obs l d + count_obs l s).
Proof.
  intros Pd [Ns Fs]. unfold count_obs. rewrite pos_add_foldin, aget_foldin by auto using Z.eqb_spec. unfold getd.
  destruct (aget Z.eqb l s) as [i|]; [|rewrite Z.add_0_r; apply eqm_refl].
  destruct (aget Z.eqb l d) as [j|]; cbn [pinfo_add p_count pinfo0]; unfold add64; apply eqm_u64.
Qed.
Lemma target_obs_add l t d s : pos_ok d -> pos_ok s -> eqm (target_obs l t (pos_add d s)) (target_obs l t d + target_obs l t s).
Proof.
  intros Pd [Ns Fs]. unfold target_obs. rewrite pos_add_foldin, aget_foldin by auto using Z.eqb_spec. unfold getd.
  destruct (aget Z.eqb l s) as [i|] eqn:E; [|rewrite Z.add_0_r; apply eqm_refl].
  assert (Ni : NoDup (akeys (p_targets i))).
  { apply aget_In in E; [|apply Z.eqb_spec]. rewrite Forall_forall in Fs. destruct (Fs _ E) as (_ & _ & [X _]). exact X. }
  assert (G : forall j, eqm (match aget name_eqb t (p_targets (pinfo_add j i)) with Some c => c | None => 0 end)
       (match aget name_eqb t (p_targets j) with Some c => c | None => 0 end + match aget name_eqb t (p_targets i) with Some c => c | None => 0 end)).
  { intros j. cbn [pinfo_add p_targets]. rewrite targets_add_foldin, aget_foldin by auto using name_eqb_spec. unfold getd.
    destruct (aget name_eqb t (p_targets i)) as [v|]; [|rewrite Z.add_0_r; apply eqm_refl].
    destruct (aget name_eqb t (p_targets j)); unfold add64; apply eqm_u64. }
  destruct (aget Z.eqb l d) as [j|]; [apply G|]. apply (G pinfo0).
Qed.
Lemma inst_quiet l key h pos : inst_obs l (flatten_pos (fst key) (snd key) h pos) = inst_obs l pos.
Proof.
  unfold inst_obs, flatten_pos. rewrite aget_aset by apply Z.eqb_spec. destruct (Z.eqb_spec l (fst key)) as [->|]; [|reflexivity].
  cbn [p_ninst]. unfold pget. destruct (aget Z.eqb (fst key) pos); reflexivity.
Qed.
Lemma count_quiet l key h pos : fst key <> l -> count_obs l (flatten_pos (fst key) (snd key) h pos) = count_obs l pos.
Proof.
  intros Ne. unfold count_obs, flatten_pos. rewrite aget_aset by apply Z.eqb_spec. destruct (Z.eqb_spec l (fst key)); [congruence|reflexivity].
Qed.
Lemma target_quiet l t key h pos : key <> (l, t) -> target_obs l t (flatten_pos (fst key) (snd key) h pos) = target_obs l t pos.
Proof.
  intros Ne. unfold target_obs, flatten_pos. rewrite aget_aset by apply Z.eqb_spec. destruct (Z.eqb_spec l (fst key)) as [->|]; [|reflexivity].
  cbn [p_targets]. unfold pget. rewrite aget_aset_other.
  - destruct (aget Z.eqb (fst key) pos); reflexivity.
  - apply name_eqb_spec.
  - intros ->. apply Ne. destruct key; reflexivity.
Qed.

Lemma find_get m n s : smap_ok m -> sm_find m n = Some s ->
  exists i, aget name_eqb n (sm_names m) = Some i /\ nth_error (sm_heap m) i = Some s /\ rootname m i = n.
Proof.
  intros W E. unfold sm_find in E. destruct (aget name_eqb n (sm_names m)) as [i|] eqn:Ei; [|discriminate].
  exists i. split; [reflexivity|]. split; [exact E|]. apply (ok_index m n i W Ei).
Qed.
Lemma root_find m i s : smap_ok m -> nth_error (sm_heap m) i = Some s -> sm_find m (rootname m i) = Some s.
Proof.
  intros W E. assert (Li : (i < length (sm_heap m))%nat) by (apply nth_error_Some; congruence).
  assert (I0 : In (rootname m i) (akeys (sm_names m))) by (unfold rootname; apply nth_In; unfold akeys; rewrite map_length, ok_len; auto).
  destruct (aget name_eqb (rootname m i) (sm_names m)) as [j|] eqn:Ej.
  - unfold sm_find. rewrite Ej. destruct (ok_index m _ j W Ej) as [_ Q].
    assert (Lj := ok_range m _ j W Ej).
    assert (j = i); [|congruence]. destruct W as [[N1 N2] _].
    apply (proj1 (NoDup_nth (akeys (sm_names m)) []) N1); auto; unfold akeys; rewrite map_length;
      apply (f_equal (@length nat)) in N2; rewrite map_length, seq_length in N2; lia.
  - exfalso. apply (aget_None_iff name_eqb name_eqb_spec) in Ej. contradiction.
Qed.
Lemma aget_ext m m' P n i : smap_ok m -> names_ext P m m' -> aget name_eqb n (sm_names m) = Some i -> aget name_eqb n (sm_names m') = Some i.
Proof.
  intros W (e & -> & _) E. clear - E. induction (sm_names m) as [|[k0 v] l IH]; cbn [aget app] in *; [discriminate|].
  destruct (name_eqb n k0); auto.
Qed.

Theorem flatten_core k m P F obs : (0 < k)%nat -> smap_ok m -> ~ calls_in_map P F m -> obs [] = 0 ->
  (forall d s, pos_ok d -> pos_ok s -> eqm (obs (pos_add d s)) (obs d + obs s)) ->
  (forall key h pos, ~ P key -> obs (flatten_pos (fst key) (snd key) h pos) = obs pos) ->
  exists num m' R Nm, FlattenNestedInlineCallsites k m = Ok (num, m') /\ good k R Nm m m' /\
    (forall g, Nm g -> In g (function_names m)) /\
    (forall j q, S (length q) = k -> calls_of m' j q = []) /\
    (forall j q key c, S (length q) = k -> In (key, c) (calls_of m j q) -> tgt_at m' j q key) /\
    eqm (map_sum obs F m') (map_sum obs F m).
Proof.
  intros kpos W NP obs_nil obs_add Q. unfold FlattenNestedInlineCallsites. destruct (Nat.eqb_spec k 0); [lia|].
  set (NAMES := function_names m). set (R := fun x (key : callsite) => (x = F -> ~ P key) /\ In (snd key) NAMES).
  assert (A : akm R m).
  { intros i s Es. apply all_keys_of.
    - intros C. apply NP. exists (rootname m i), s. split; [apply root_find; auto|exact C].
    - intros g Ig. unfold NAMES, function_names. apply in_or_app. right. apply in_flat_map. exists s. split; [eapply nth_error_In; eauto|exact Ig]. }
  destruct (all_flatten k kpos obs F obs_nil obs_add R NAMES) with (fuel := S (length NAMES)) (cur := @None name) (num := 0) (m := m)
    as (num & m' & E & G & Z & T & Sm); auto.
  - intros key h pos [H _]. apply Q. apply H. reflexivity.
  - intros x key [_ H]. exact H.
  - intros g Ig. unfold NAMES, function_names. apply in_or_app. left. exact Ig.
  - intros j q _ X. discriminate.
  - assert (Le : forall (f : name -> bool) l, (length (filter f l) <= length l)%nat).
    { intros f l. induction l as [|y l IH]; cbn [filter length]; [lia|]. destruct (f y); cbn [length]; lia. }
    specialize (Le (after None) NAMES). lia.
  - exists num, m', R, (fun n => In n NAMES). split; [exact E|]. split; [exact G|]. auto.
Qed.
