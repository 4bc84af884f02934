(** C58: the LLVM profile that is written. *)
From Verif Require Import Base ByteModel AssocFold SymbolModel SymbolSpec SymbolProofs AfdoModel AfdoProofs SrcOffsetModel FlattenPureProofs FlattenMapProofs HybridSpec LlvmReadModel LlvmWriteModel LlvmWriteSpec LlvmWriteProofs LlvmWriteRep LlvmRoundProofs.

Lemma atq_flat q : forall ns, atq q ns = flat_map (nodes_at q) ns.
Proof.
  induction q as [|k q IH]; intros ns; cbn [atq nodes_at].
  - induction ns as [|s ns IHn]; cbn [flat_map]; [reflexivity|]. rewrite <- IHn. reflexivity.
  - rewrite IH. unfold at1. induction ns as [|s ns IHn]; cbn [flat_map]; [reflexivity|]. rewrite flat_map_app, IHn. f_equal. clear.
    induction (s_calls s) as [|[[o g] c] cs IHc]; cbn [flat_map]; [reflexivity|]. rewrite flat_map_app, IHc. f_equal. unfold llvm_key. cbn [fst snd]. rewrite line_disc_loc. destruct (lkey_eqb _ k); cbn [flat_map]; [apply app_nil_r|reflexivity].
Qed.
Lemma atq_one q s : atq q [s] = nodes_at q s.
Proof. rewrite atq_flat. cbn [flat_map]. apply app_nil_r. Qed.
Lemma nes_lines l ns : at_l l (nes ns) = map p_count (lines_at l ns).
Proof.
  unfold nes, lines_at. induction ns as [|s ns IH]; cbn [flat_map]; [reflexivity|]. rewrite at_l_app, map_app, IH. f_equal. clear. unfold ges, at_l. induction (s_pos s) as [|[o i] pos IH]; cbn [map filter fst snd]; [reflexivity|]. rewrite line_disc_loc. destruct (lloc_eqb (llvm_loc o) l); cbn [map snd]; [f_equal|]; exact IH.
Qed.
Lemma at_l_const {A} l l' (ts : list A) : at_l l (map (fun tx => (l', tx)) ts) = if lloc_eqb l' l then ts else [].
Proof. unfold at_l. destruct (lloc_eqb l' l) eqn:E; induction ts as [|x ts IH]; cbn [map filter fst]; try reflexivity; rewrite E; cbn [map snd]; [f_equal|]; exact IH. Qed.
Lemma ngs_lines l t ns : at_t t (at_l l (ngs ns)) = targets_of t (lines_at l ns).
Proof.
  unfold ngs, lines_at, targets_of. induction ns as [|s ns IH]; cbn [flat_map]; [reflexivity|]. rewrite at_l_app, at_t_app, flat_map_app, IH. f_equal. clear. unfold ggs. induction (s_pos s) as [|[o i] pos IH]; cbn [flat_map filter fst snd map]; [reflexivity|]. rewrite at_l_app, at_t_app, IH, at_l_const, line_disc_loc.
  destruct (lloc_eqb (llvm_loc o) l); cbn [map flat_map snd]; reflexivity.
Qed.
Lemma tot_counts is : tot (map p_count is) = count_sum is.
Proof. unfold count_sum. rewrite sumz_map. reflexivity. Qed.

Lemma nover_spec s : nover [s] <-> llvm_overflow s.
Proof.
  unfold nover, llvm_overflow, bover. split; intros (q & H); exists q; rewrite atq_one in *; cbv zeta.
  - destruct H as [H|(l & H)]; [left; exact H|right; exists l]. rewrite nes_lines, tot_counts in H. destruct H as [H|(t & H)]; [left; exact H|right; exists t]. rewrite ngs_lines in H. exact H.
  - destruct H as [H|(l & H)]; [left; exact H|right; exists l]. rewrite nes_lines, tot_counts. destruct H as [H|(t & H)]; [left; exact H|right; exists t]. rewrite ngs_lines. exact H.
Qed.

Lemma rep_at q : forall ns f, rep ns f ->
  match fget q f with
  | None => atq q ns = []
  | Some x => nodeok (atq q ns) x /\ (q <> [] -> atq q ns <> []) /\ (forall q0 k, q = q0 ++ [k] -> lf_name x = snd k /\ lf_head x = 0)
  end.
Proof.
  induction q as [|k q IH]; intros ns f R; inversion R as [? ? NO N1 N2 N3]; subst; cbn [fget atq].
  - split; [exact NO|]. split; [congruence|]. intros [|? ?] k H; discriminate.
  - destruct (fchild k f) as [c|] eqn:FC.
    + specialize (IH _ c (N3 _ _ FC)). destruct (fget q c) as [x|] eqn:G; [|exact IH]. destruct IH as (A & B & C). split; [exact A|]. split.
      * intros _. destruct q as [|k1 q]; [|apply B; discriminate]. exact (proj1 (N2 _ _ FC)).
      * intros [|k0 q0] k1 E; cbn [app] in E; injection E as E1 E2; subst.
        -- cbn [fget] in G. injection G as <-. exact (proj2 (N2 _ _ FC)).
        -- exact (C q0 k1 eq_refl).
    + rewrite (N1 _ FC). clear. induction q as [|k1 q IH]; [reflexivity|]. exact IH.
Qed.
Lemma rep_of g s f : rep [s] f -> lf_name f = g -> lf_head f = s_head s -> llvm_of g s f /\ ~ llvm_overflow s.
Proof.
  intros R HN HH. split.
  - split; [exact HN|]. split; [exact HH|]. intros q. cbv zeta. rewrite lnode_fget. pose proof (rep_at q _ _ R) as A. rewrite atq_one in A. destruct (fget q f) as [x|]; [|exact A].
    destruct A as (((TE & _) & BE) & B & C). split; [destruct q; [discriminate|apply B; discriminate]|]. split; [exact TE|]. split; [exact C|]. intros l. rewrite lrecord_aget. specialize (BE l). destruct (aget lloc_eqb l (lf_body x)) as [r|].
    + destruct BE as (NE & (CE & _) & GE). rewrite nes_lines in *. split; [intros Z0; rewrite Z0 in NE; apply NE; reflexivity|]. split; [rewrite <- tot_counts; exact CE|]. intros t. rewrite ltarget_aget. specialize (GE t). rewrite ngs_lines in GE. destruct (aget name_eqb t (snd r)); [|exact GE]. destruct GE as (G1 & G2 & _). split; [exact G1|exact G2].
    + destruct BE as (E & _). rewrite nes_lines in E. apply map_eq_nil in E. exact E.
  - rewrite <- nover_spec. intros (q & H). pose proof (rep_at q _ _ R) as A. destruct (fget q f) as [x|].
    + destruct A as (((TE & TB) & BE) & _). destruct H as [H|(l & H)]; [lia|]. specialize (BE l). destruct (aget lloc_eqb l (lf_body x)) as [r|].
      * destruct BE as (_ & (CE & CB) & GE). destruct H as [H|(t & H)]; [lia|]. specialize (GE t). destruct (aget name_eqb t (snd r)); [destruct GE as (_ & G1 & G2); lia|]. rewrite GE in H. cbn [sumz] in H. lia.
      * destruct BE as (E1 & E2). rewrite E1, E2 in H. cbn [sumz at_t filter map] in H. destruct H as [H|(t & H)]; [lia|]. unfold at_t in H. cbn [filter map sumz] in H. lia.
    + rewrite A in H. destruct H as [H|(l & [H|(t & H)])]; cbn in H; lia.
Qed.

(** *** Names *)
Lemma nameless_callees s : nameless s <-> In [] (callees s).
Proof.
  induction s as [h t ts pos cs IH] using symbol_ind'. cbn [nameless callees]. induction cs as [|[[o g] c] cs IHc]; cbn [fold_right flat_map fst snd].
  - split; intros [].
  - rewrite in_app_iff. cbn [In]. rewrite (IH (o, g) c (or_introl eq_refl)). rewrite IHc by (intros k0 c0 H; apply (IH k0 c0); right; exact H). tauto.
Qed.
Lemma callees_events s : forall n, In n (callees s) <-> exists e, In e (traverse s) /\ In n (ev_function_names e).
Proof.
  induction s as [h t ts pos cs IH] using symbol_ind'. intros n. cbn [traverse callees]. split.
  - intros H. apply in_flat_map in H. destruct H as ([[o g] c] & HI & [<-|H]).
    + exists (ECall (o, g)). split; [right; apply in_flat_map; exists ((o, g), c); split; [exact HI|left; reflexivity]|left; reflexivity].
    + apply (IH _ _ HI) in H. destruct H as (e & He & Hn). exists e. split; [right; apply in_flat_map; exists ((o, g), c); split; [exact HI|right; exact He]|exact Hn].
  - intros (e & [<-|He] & Hn); [destruct Hn|]. apply in_flat_map in He. destruct He as ([[o g] c] & HI & [<-|He]); apply in_flat_map; exists ((o, g), c); (split; [exact HI|]).
    + left. cbn [ev_function_names] in Hn. destruct Hn as [Hn|[]]. exact Hn.
    + right. apply (IH _ _ HI). exists e. split; assumption.
Qed.
Lemma start_events thr tops e : In e (start thr tops) <-> exists n s, In (n, s) tops /\ thr < s64 (s_total s) /\ (e = ETop n s \/ In e (traverse s)).
Proof.
  unfold start. rewrite in_flat_map. split.
  - intros ([n s] & HI & H). unfold AfdoModel.ShouldEmit in H. cbv beta iota in H. destruct (Z.ltb_spec thr (s64 (s_total s))) as [LT|GE]; [|destruct H]. exists n, s. split; [exact HI|]. split; [assumption|]. destruct H as [<-|H]; [left; reflexivity|right; exact H].
  - intros (n & s & HI & L & H). exists (n, s). split; [exact HI|]. unfold AfdoModel.ShouldEmit. cbv beta iota. destruct (Z.ltb_spec thr (s64 (s_total s))); [|lia]. destruct H as [-> |H]; [left; reflexivity|right; exact H].
Qed.
Lemma in_names e n : In n (ev_function_names e) -> In n (ev_names e).
Proof. destruct e as [m s|s|[l m]]; cbn; [intros [->|[]]; left; reflexivity|intros []|intros [->|[]]; left; reflexivity]. Qed.
Lemma all_names_nub evs : all_names evs <> UB.
Proof.
  induction evs as [|e evs IH]; cbn [all_names]; [discriminate|]. assert (event_names e <> UB) by (destruct e as [[|? ?] ?|?|[? [|? ?]]]; discriminate). destruct (event_names e); cbn [obind]; [|congruence|congruence]. destruct (all_names evs); cbn [obind]; congruence.
Qed.
Lemma all_names_abort evs : all_names evs = Abort -> exists e, In e evs /\ In [] (ev_function_names e).
Proof.
  induction evs as [|e evs IH]; cbn [all_names]; [discriminate|]. intros H. destruct (event_names e) as [a| |] eqn:A; cbn [obind] in H.
  - destruct (all_names evs) as [b| |]; cbn [obind] in H; [discriminate| |discriminate]. destruct (IH eq_refl) as (e' & I1 & I2). exists e'. split; [right; exact I1|exact I2].
  - exists e. split; [left; reflexivity|]. destruct e as [[|? ?] ?|?|[? [|? ?]]]; try discriminate A; left; reflexivity.
  - exfalso. destruct e as [[|? ?] ?|?|[? [|? ?]]]; discriminate A.
Qed.

(** *** The whole file *)
Definition emits (thr : Z) (s : symbol) : Prop := thr < s64 (s_total s).
Definition written (thr : Z) (tops : list (name * symbol)) (ps : list (name * lfs)) : Prop :=
  NoDup (map fst ps) /\
  (forall n f, In (n, f) ps -> exists s, In (n, s) tops /\ emits thr s /\ (rep [s] f /\ lwf f) /\ lf_name f = n /\ lf_head f = s_head s) /\
  (forall n s, In (n, s) tops -> emits thr s -> In n (map fst ps)).
Lemma wstart_rep table thr tops : NoDup (map fst tops) -> (forall n s, In (n, s) tops -> sym_ok s /\ (emits thr s -> n <> [] /\ In n table /\ known table s)) ->
  forall done ps stack, NoDup (map fst (done ++ tops)) -> written thr done ps ->
  match wstart table thr tops (ps, stack) with
  | Ok st => written thr (done ++ tops) (fst st)
  | Abort => exists n s, In (n, s) tops /\ emits thr s /\ nover [s]
  | UB => False
  end.
Proof.
  induction tops as [|[n s] tops IH]; intros ND OK done ps stack ND2 W; cbn [wstart].
  - cbn [fst]. rewrite app_nil_r. exact W.
  - inversion ND as [|? ? NI ND']; subst. destruct (OK n s (or_introl eq_refl)) as (OS & KN).
    assert (EQ : done ++ (n, s) :: tops = (done ++ [(n, s)]) ++ tops) by (rewrite <- app_assoc; reflexivity). rewrite EQ in *.
    assert (OK' : forall n s, In (n, s) tops -> sym_ok s /\ (emits thr s -> n <> [] /\ In n table /\ known table s)) by (intros n0 s0 H; apply OK; right; exact H).
    destruct W as (W1 & W2 & W3). unfold LlvmReadModel.ShouldEmit, AfdoModel.ShouldEmit. destruct (Z.ltb_spec thr (s64 (s_total s))) as [EM|NE].
    + destruct (KN EM) as (NN & IT & KS).
      assert (NP : ~ In n (map fst ps)).
      { intros H. apply in_map_iff in H. destruct H as ([n0 f0] & E0 & H). cbn [fst] in E0. subst n0. destruct (W2 _ _ H) as (s0 & H0 & _). clear EQ. rewrite map_app, map_app in ND2. cbn [map fst] in ND2.
        rewrite <- app_assoc in ND2. apply NoDup_remove_2 in ND2. apply ND2. apply in_or_app. left. apply (in_map fst) in H0. exact H0. }
      assert (AG : aget name_eqb n ps = None).
      { destruct (aget name_eqb n ps) as [f0|] eqn:E0; [|reflexivity]. exfalso. apply NP. clear -E0. induction ps as [|[k v] ps IH]; cbn [aget map fst] in *; [discriminate|]. destruct (name_eqb_spec n k); [left; congruence|right; apply IH; exact E0]. }
      unfold visit_top. pose proof (getname_ok table n NN IT) as GN. destruct n as [|x n]; [congruence|]. cbn [checked_name obind] in GN. set (nn := x :: n) in *. rewrite GN. cbn [obind fst]. rewrite AG.
      inversion OS as [h t ts pos cs OH OT OP NDc OCS]; subst. cbn [s_head s_total] in *. unfold lfs0. cbn [add_head]. unfold sat_add at 1. unfold is_u64 in OH, OT. destruct (Z.ltb_spec (0 + h) (2 ^ 64)) as [_|Q]; [|lia]. cbn [obind add_total]. unfold sat_add at 1. destruct (Z.ltb_spec (0 + t) (2 ^ 64)) as [_|Q]; [|lia]. cbn [obind set_function]. set (f0 := LFS nn (0 + h) (0 + t) [] []). set (s := Sym h t ts pos cs) in *.
      set (ps1 := aset name_eqb nn f0 ps). assert (PG : pget_ (nn, []) ps1 = Some f0) by (unfold pget_, ps1; cbn [fst snd]; rewrite (aget_aset_same name_eqb name_eqb_spec); reflexivity).
      pose proof (traverse_refines table s 0 ps1 [(nn, [])] (nn, []) f0 eq_refl eq_refl PG) as RF.
      match goal with |- context [wtraverse table 0 s ?st] => assert (RF' : refines (wr table 0 s f0) 1 [(nn, [])] (nn, []) ps1 (wtraverse table 0 s st)) by exact RF; clear RF; rename RF' into RF; set (W := wtraverse table 0 s st) in * end.
      pose proof (wr_top table s f0 OS KS ltac:(unfold f0, s; cbn [lf_total s_total]; lia) eq_refl eq_refl) as GR.
      destruct (wr table 0 s f0) as [f1| |] eqn:EW; cbn [refines grown app] in *; [| |destruct GR].
      * assert (LW : lwf f0) by (unfold f0; constructor; [unfold is_u64; lia|unfold is_u64; lia|split; constructor|constructor|intros ? ? []|intros ? ? []]).
        destruct RF as (st' & -> & _). cbn [obind]. destruct GR as (G1 & G2 & G3).
        assert (PE : pput (nn, []) f1 ps1 = ps ++ [(nn, f1)]).
        { unfold pput. cbn [fst snd fput]. unfold ps1. rewrite (aget_aset_same name_eqb name_eqb_spec), (aset_aset name_eqb name_eqb_spec). clear -AG. induction ps as [|[k v] ps IH]; cbn [aget aset app] in *; [reflexivity|]. destruct (name_eqb nn k); [discriminate|]. f_equal. apply IH. exact AG. }
        rewrite PE.
        assert (W' : written thr (done ++ [(nn, s)]) (ps ++ [(nn, f1)])).
        { split; [|split].
          - rewrite map_app. cbn [map fst]. apply NoDup_snoc; assumption.
          - intros n0 f2 H. apply in_app_or in H. destruct H as [H|[H|[]]].
            + destruct (W2 _ _ H) as (s0 & A & B). exists s0. split; [apply in_or_app; left; exact A|exact B].
            + injection H as <- <-. exists s. split; [apply in_or_app; right; left; reflexivity|]. split; [exact EM|]. split; [split; [exact G1|exact (proj1 (wr_keeps table s OS 0 f0 f1 EW LW))]|]. split; [exact G2|]. rewrite G3. unfold f0, s. cbn [lf_head s_head]. lia.
          - intros n0 s0 H E0. rewrite map_app. apply in_or_app. apply in_app_or in H. destruct H as [H|[H|[]]]; [left; exact (W3 _ _ H E0)|right; left; cbn [fst]; congruence]. }
        specialize (IH ND' OK' (done ++ [(nn, s)]) (ps ++ [(nn, f1)]) st' ND2 W'). destruct (wstart table thr tops (ps ++ [(nn, f1)], st')) as [st2| |]; [exact IH| |exact IH]. destruct IH as (n2 & s2 & A & B). exists n2, s2. split; [right; exact A|exact B].
      * rewrite RF. cbn [obind]. exists nn, s. split; [left; reflexivity|]. split; [exact EM|exact GR].
    + assert (W' : written thr (done ++ [(n, s)]) ps).
      { split; [exact W1|]. split.
        - intros n0 f0 H. destruct (W2 _ _ H) as (s0 & A & B). exists s0. split; [apply in_or_app; left; exact A|exact B].
        - intros n0 s0 H E0. apply in_app_or in H. destruct H as [H|[H|[]]]; [exact (W3 _ _ H E0)|]. injection H as <- <-. unfold emits in E0. lia. }
      specialize (IH ND' OK' (done ++ [(n, s)]) ps stack ND2 W'). destruct (wstart table thr tops (ps, stack)) as [st2| |]; [exact IH| |exact IH]. destruct IH as (n2 & s2 & A & B). exists n2, s2. split; [right; exact A|exact B].
Qed.

Lemma known_names thr tops table : all_names (start thr tops) = Ok table -> forall n s, In (n, s) tops -> emits thr s -> n <> [] /\ In n table /\ known table s.
Proof.
  intros AN. apply all_names_Ok_inv in AN. destruct AN as (TE & NN). intros n s HI EM. assert (ET : In (ETop n s) (start thr tops)) by (apply start_events; exists n, s; split; [exact HI|split; [exact EM|left; reflexivity]]). split; [apply (NN _ n ET); left; reflexivity|]. split.
  - rewrite TE. apply in_flat_map. exists (ETop n s). split; [exact ET|left; reflexivity].
  - intros m Hm. apply callees_events in Hm. destruct Hm as (e & He & Hm). assert (EI : In e (start thr tops)) by (apply start_events; exists n, s; split; [exact HI|split; [exact EM|right; exact He]]). split; [exact (NN _ _ EI Hm)|]. rewrite TE. apply in_flat_map. exists e. split; [exact EI|exact (in_names _ _ Hm)].
Qed.
Lemma write_written thr tops ps : NoDup (map fst tops) -> Forall (fun e => sym_ok (snd e)) tops -> write_llvm thr tops = Ok ps -> written thr tops ps.
Proof.
  intros ND OK. unfold write_llvm. destruct (all_names (start thr tops)) as [table| |] eqn:AN; cbn [obind]; [|discriminate|discriminate]. rewrite Forall_forall in OK.
  pose proof (wstart_rep table thr tops ND (fun n s HI => conj (OK _ HI) (known_names _ _ _ AN n s HI)) [] [] [] ND) as W. cbn [app] in W. specialize (W ltac:(split; [constructor|]; split; [intros ? ? []|intros ? ? []])).
  destruct (wstart table thr tops ([], [])) as [st| |]; cbn [obind]; [|discriminate|discriminate]. intros E. injection E as <-. exact W.
Qed.

(** The profile handed to LLVM has exactly the functions whose total is above
    the threshold, each saying what [llvm_of] asks for; writing stops only for a
    function or inlined callee without a name, or for a sum that LLVM's 64-bit
    counters cannot hold. *)
Theorem C58_llvm_profile : forall thr tops,
  NoDup (map fst tops) -> Forall (fun e => sym_ok (snd e)) tops ->
  match write_llvm thr tops with
  | Ok ps =>
      NoDup (map fst ps) /\
      (forall n f, In (n, f) ps -> exists s, In (n, s) tops /\ thr < s64 (s_total s) /\ llvm_of n s f) /\
      (forall n s, In (n, s) tops -> thr < s64 (s_total s) ->
         (exists f, In (n, f) ps /\ llvm_of n s f) /\ n <> [] /\ ~ nameless s /\ ~ llvm_overflow s)
  | Abort => exists n s, In (n, s) tops /\ thr < s64 (s_total s) /\ (n = [] \/ nameless s \/ llvm_overflow s)
  | UB => False
  end.
Proof.
  intros thr tops ND OK. unfold write_llvm. destruct (all_names (start thr tops)) as [table| |] eqn:AN; cbn [obind].
  - pose proof (known_names _ _ _ AN) as KN.
    rewrite Forall_forall in OK.
    assert (OK' : forall n s, In (n, s) tops -> sym_ok s /\ (emits thr s -> n <> [] /\ In n table /\ known table s)) by (intros n s HI; split; [exact (OK _ HI)|exact (KN n s HI)]).
    pose proof (wstart_rep table thr tops ND OK' [] [] [] ND) as W. cbn [app] in W. specialize (W ltac:(split; [constructor|]; split; [intros ? ? []|intros ? ? []])).
    destruct (wstart table thr tops ([], [])) as [st| |]; cbn [obind]; [| |exact W].
    + destruct W as (W1 & W2 & W3). split; [exact W1|]. split.
      * intros n f H. destruct (W2 n f H) as (s & A & B & (C & _) & D & E). exists s. split; [exact A|]. split; [exact B|]. exact (proj1 (rep_of n s f C D E)).
      * intros n s HI EM. pose proof (W3 n s HI EM) as H. apply in_map_iff in H. destruct H as ([n0 f] & E0 & HF). cbn [fst] in E0. subst n0. destruct (W2 n f HF) as (s' & A & B & (C & _) & D & E).
        assert (s' = s) as ->.
        { clear -ND HI A. induction tops as [|[n1 s1] tops IH]; [destruct HI|]. inversion ND as [|? ? NI ND']; subst. cbn [map fst] in *. destruct HI as [E|HI], A as [E'|A]; [congruence| | |exact (IH ND' HI A)].
          - exfalso. apply NI. injection E as -> ->. apply (in_map fst) in A. exact A.
          - exfalso. apply NI. injection E' as -> ->. apply (in_map fst) in HI. exact HI. }
        destruct (rep_of n s f C D E) as (L & NO). destruct (KN n s HI EM) as (K1 & _ & K3). split; [exists f; split; [exact HF|exact L]|]. split; [exact K1|]. split; [|exact NO]. rewrite nameless_callees. intros Hn. exact (proj1 (K3 _ Hn) eq_refl).
    + destruct W as (n & s & A & B & C). exists n, s. split; [exact A|]. split; [exact B|]. right. right. apply nover_spec. exact C.
  - apply all_names_abort in AN. destruct AN as (e & EI & EN). apply start_events in EI. destruct EI as (n & s & HI & EM & H). exists n, s. split; [exact HI|]. split; [exact EM|]. destruct H as [-> |H].
    + left. destruct EN as [EN|[]]. exact EN.
    + right. left. apply nameless_callees, callees_events. exists e. split; assumption.
  - exact (all_names_nub _ AN).
Qed.
