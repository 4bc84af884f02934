(** C69: what a Propeller run makes of the samples and the binary. *)
From Coq Require Import Sorted Permutation String Ascii.
From Verif Require Import Base ISort StdSearch SymbolModel SymbolProofs MapperModel MapperSpec MapperProofs MapperProps
  CfgFreqModel CfgBuildModel CfgBuildSpec CfgBuildProofs CfgBuildTotal CfgBuildProps.
From Verif Require Import ForcedModel ForcedSpec ChainModel ChainSpec ChainAsmProofs ChainBuildModel ChainBuildSpec ChainInitProofs ClusterModel ClusterSpec ClusterProofs LayoutModel LayoutSpec LayoutRunProofs LayoutProps.
From Verif Require Import WriterModel WriterSpec WriterProps PropEndModel PropEndSpec PropEndProofs PropEndA PropEndB PropEndC PropEndD.

(** * Addresses *)
Lemma add_address_ok s a x : In x (add_address s a) <-> In x s \/ x = a.
Proof.
  unfold add_address. destruct (existsb (Z.eqb a) s) eqn:E.
  - apply existsb_exists in E as [y [Hy Ey]]. apply Z.eqb_eq in Ey. subst y. split; [auto|]. intros [H|H]; [exact H|subst; exact Hy].
  - rewrite in_app_iff. cbn [In]. split; [intros [H|[H|[]]]; [left; exact H|right; congruence]|intros [H|H]; [left; exact H|right; left; congruence]].
Qed.
Lemma add_address_nodup s a : NoDup s -> NoDup (add_address s a).
Proof.
  intros N. unfold add_address. destruct (existsb (Z.eqb a) s) eqn:E; [exact N|]. apply NoDup_app_intro; [exact N|constructor; [intros []|constructor]|].
  intros x Hx [Hx'|[]]. subst x. assert (existsb (Z.eqb a) s = true) by (apply existsb_exists; exists a; split; [exact Hx|apply Z.eqb_refl]). congruence.
Qed.
Lemma add_ends_fold cs : forall s, (forall x, In x (fold_left add_ends cs s) <-> In x s \/ exists c, In c cs /\ (x = fst (fst c) \/ x = snd (fst c))) /\ (NoDup s -> NoDup (fold_left add_ends cs s)).
Proof.
  induction cs as [|c cs IH]; intros s; cbn [fold_left]; [split; [|auto]|].
  - intros x. split; [auto|]. intros [H|[c [[] _]]]. exact H.
  - destruct (IH (add_ends s c)) as [I1 I2]. split.
    + intros x. rewrite I1. unfold add_ends. rewrite !add_address_ok. split.
      * intros [[[H|H]|H]|[c' [Hc H]]]; [auto|right; exists c; split; [left; reflexivity|auto]|right; exists c; split; [left; reflexivity|auto]|right; exists c'; split; [right; exact Hc|exact H]].
      * intros [H|[c' [[<-|Hc] H]]]; [auto|destruct H; auto|right; eauto].
    + intros N. apply I2. unfold add_ends. apply add_address_nodup, add_address_nodup, N.
Qed.

(** The addresses given to the address mapper are the ends of the branches and
    fall-throughs, each once. *)
Theorem C69_addresses branches falls :
  NoDup (GetUniqueAddresses branches falls) /\
  forall a, In a (GetUniqueAddresses branches falls) <-> exists from to w, In (from, to, w) (branches ++ falls) /\ (a = from \/ a = to).
Proof.
  unfold GetUniqueAddresses. destruct (add_ends_fold branches []) as [A1 A2]. destruct (add_ends_fold falls (fold_left add_ends branches [])) as [B1 B2].
  split; [apply B2, A2; constructor|]. intros a. rewrite B1, A1. split.
  - intros [[[]|[[[f t] w] [Hc H]]]|[[[f t] w] [Hc H]]]; exists f, t, w; rewrite in_app_iff; auto.
  - intros [f [t [w [H E]]]]. apply in_app_or in H as [H|H]; [left; right|right]; exists (f, t, w); auto.
Qed.
Print Assumptions C69_addresses.

(** * Section names *)
Lemma name_leb_total a : forall b, name_leb a b = true \/ name_leb b a = true.
Proof.
  induction a as [|x a IH]; intros [|y b]; cbn [name_leb]; auto. destruct (Z.ltb_spec x y); cbn [orb]; auto. destruct (Z.ltb_spec y x); cbn [orb]; auto.
  destruct (Z.eqb_spec x y); [|lia]. destruct (Z.eqb_spec y x); [|lia]. cbn [andb]. apply IH.
Qed.
Lemma name_leb_trans a : forall b c, name_leb a b = true -> name_leb b c = true -> name_leb a c = true.
Proof.
  induction a as [|x a IH]; intros [|y b] [|z c]; cbn [name_leb]; try discriminate; auto. rewrite !Bool.orb_true_iff, !Bool.andb_true_iff, !Z.ltb_lt, !Z.eqb_eq.
  intros [H|[H1 H2]] [K|[K1 K2]]; [left; lia|left; lia|left; lia|right; split; [lia|eauto]].
Qed.
Lemma name_leb_before a : forall b, name_leb a b = true -> a <> b -> before a b.
Proof.
  induction a as [|x a IH]; intros [|y b]; cbn [name_leb]; try discriminate; [congruence|constructor|].
  rewrite Bool.orb_true_iff, Bool.andb_true_iff, Z.ltb_lt, Z.eqb_eq. intros [H|[<- H]] N; [constructor 2; exact H|constructor 3; apply IH; [exact H|congruence]].
Qed.
Lemma add_name_In l : forall s n, In n (fold_left add_name l s) <-> In n s \/ In n l.
Proof.
  induction l as [|x l IH]; intros s n; cbn [fold_left In]; [intuition|]. rewrite IH. unfold add_name. destruct (existsb (name_eqb x) s) eqn:E.
  - apply existsb_exists in E as [y [Hy E]]. destruct (name_eqb_spec x y); [subst y|discriminate]. split; [intuition|]. intros [H|[H|H]]; [auto|subst; auto|auto].
  - rewrite in_app_iff. cbn [In]. intuition.
Qed.
Lemma add_name_nodup l : forall s, NoDup s -> NoDup (fold_left add_name l s).
Proof.
  induction l as [|x l IH]; intros s N; cbn [fold_left]; [exact N|]. apply IH. unfold add_name. destruct (existsb (name_eqb x) s) eqn:E; [exact N|].
  apply NoDup_app_intro; [exact N|constructor; [intros []|constructor]|]. intros y Hy [<-|[]]. assert (existsb (name_eqb x) s = true); [|congruence].
  apply existsb_exists. exists x. split; [exact Hy|]. destruct (name_eqb_spec x x); congruence.
Qed.
Lemma section_names_ok B fs : (forall n, In n (section_names B fs) <-> exists f, In f fs /\ section_of B (Z.of_nat f) = n) /\ StronglySorted before (section_names B fs).
Proof.
  unfold section_names. split.
  - intros n. rewrite isort_In, add_name_In, in_map_iff. split; [intros [[]|[f [E H]]]; eauto|intros [f [H E]]; right; eauto].
  - pose proof (add_name_nodup (map (fun f => section_of B (Z.of_nat f)) fs) [] (NoDup_nil _)) as N.
    apply (Permutation_NoDup (isort_perm name_leb _)) in N. pose proof (isort_sorted name_leb name_leb_total name_leb_trans (fold_left add_name (map (fun f => section_of B (Z.of_nat f)) fs) [])) as SS.
    induction SS as [|x l SS IH F]; constructor; inversion N as [|? ? N1 N2]; subst; [auto|]. rewrite Forall_forall in *. intros y Hy. apply name_leb_before; [exact (F y Hy)|]. intros ->. contradiction.
Qed.

(** * The whole run *)
Lemma transitions_ge mp branches falls : (forall c, In c (branches ++ falls) -> 0 <= snd c) ->
  2 * sum_if (fun _ => true) branches + sum_if (fun _ => true) falls <= transitions mp branches falls.
Proof.
  intros H. unfold transitions. apply Z.add_le_mono.
  - clear H. induction branches as [|c cs IH]; cbn [sum_if fold_right]; lia.
  - assert (G : forall c, In c falls -> 0 <= snd c) by (intros; apply H, in_or_app; auto). clear H. induction falls as [|c cs IH]; cbn [sum_if fold_right]; [lia|].
    specialize (IH (fun x Hx => G x (or_intror Hx))). specialize (G c (or_introl eq_refl)). assert (0 <= passed mp c) by (unfold passed; destruct (sampled_path mp c) as [[i j]|]; lia). nia.
Qed.
Lemma sum_all_nonneg cs : (forall c, In c cs -> 0 <= snd c) -> 0 <= sum_if (fun _ : counter => true) cs.
Proof. induction cs as [|c cs IH]; intros H; cbn [sum_if]; [lia|]. pose proof (H c (or_introl eq_refl)). specialize (IH (fun x Hx => H x (or_intror Hx))). lia. Qed.
Lemma create_none dbg pre has mp order reject branches falls : CreateEdges dbg pre has mp order reject branches falls = Ok None -> exists a b c d, reject a b c d = true.
Proof.
  unfold CreateEdges. destruct (branch_loop _ _ _ _ _ _) as [[[st ft] d]| |]; cbn [obind]; try discriminate.
  destruct (reject _ _ _ _) eqn:E; [eauto|]. destruct (ft_map_loop _ _ _ _) as [ft'| |]; cbn [obind]; try discriminate. destruct (paths_loop _ _ _ _ _ _) as [st'| |]; cbn [obind]; discriminate.
Qed.

Lemma NoDup_map_eq {A C} (h : A -> C) l x y : NoDup (map h l) -> In x l -> In y l -> h x = h y -> x = y.
Proof.
  induction l as [|z l IH]; intros N Hx Hy E; [destruct Hx|]. cbn [map] in N. inversion N as [|? ? N1 N2]; subst.
  destruct Hx as [<-|Hx], Hy as [<-|Hy]; [reflexivity| | |auto]; destruct N1; [rewrite E|rewrite <- E]; apply in_map; assumption.
Qed.
Section Run.
  Context (v : version) (B : binary) (S : settings) (mp : mapper).
  Hypothesis BG : binary_good v B.
  Hypothesis SG : settings_good S.
  Hypothesis SH : shape (x_funcs B) (x_info B) mp.
  Context (has : bb_handle -> bool) (branches falls : list counter) (st : CfgBuildModel.cstate).
  Hypothesis HAS : forall h, has h = true <-> In h (mp_handles mp).
  Hypothesis BO : builder_ok mp has.
  Hypothesis CO : counts_ok branches falls.
  Hypothesis CE : CreateEdges false [] has mp (s_falls S) (s_reject S) branches falls = Ok (Some st).
  Hypothesis TR : 10 * transitions mp branches falls < 2 ^ 31.
  Context (scores : finfo -> text).
  Hypothesis SC : forall z, free [10] (scores z) /\ hd 0 (scores z) = 35.
  Notation L := (layout_params B S mp st).
  Notation cfgs := (written_cfg B S mp st).
  Notation ids := (block_id B mp).
  Notation fl n := (s_cfgs S (filter (in_section B n) (kept B S mp st))).

  Lemma kept_nodup : NoDup (kept B S mp st).
  Proof. unfold kept. apply NoDup_filter. apply (sorted_NoDup lt); [intros; lia|exact (sh_sorted _ _ _ SH)]. Qed.
  Lemma fl_nodup n : NoDup (fl n).
  Proof. eapply Permutation_NoDup; [symmetry; apply (sg_cfgs _ SG)|]. apply NoDup_filter, kept_nodup. Qed.
  Lemma fl_In n f : In f (fl n) <-> In f (kept B S mp st) /\ section_of B (Z.of_nat f) = n.
  Proof.
    split.
    - intros H. apply (Permutation_in _ (sg_cfgs _ SG _)) in H. apply filter_In in H as [H E]. split; [exact H|]. unfold in_section in E. destruct (name_eqb_spec (section_of B (Z.of_nat f)) n); congruence.
    - intros [H E]. apply (Permutation_in _ (Permutation_sym (sg_cfgs _ SG _))). apply filter_In. split; [exact H|]. unfold in_section. destruct (name_eqb_spec (section_of B (Z.of_nat f)) n); congruence.
  Qed.
  Lemma sections_run : forall ns, exists secs, layout_sections B S mp st ns = Ok secs /\ map fst secs = ns /\
    forall s, In s secs -> OrderAll L (map (graph mp st) (fl (fst s))) = Ok (snd s).
  Proof.
    induction ns as [|n ns [secs [E [M A]]]]; [exists []; split; [reflexivity|]; split; [reflexivity|intros s []]|].
    destruct (C32_layout L (map (graph mp st) (fl n)) (section_fits v B S mp BG SG SH false has branches falls st HAS BO CO CE TR n (fl n) (fl_nodup n) (fl_In n))) as [cs [ks [zs [_ [_ [Q _]]]]]].
    exists ((n, zs) :: secs). cbn [layout_sections]. rewrite Q. cbn [obind]. rewrite E. cbn [obind map fst]. split; [reflexivity|]. split; [congruence|]. intros s [<-|Hs]; [exact Q|apply A, Hs].
  Qed.
  Notation written secs := (map (fun s => (fst s, map (to_info ids scores) (snd s))) secs).
  Lemma section_name_eq f : section_of B (Z.of_nat f) = section_name B f.
  Proof. unfold section_of, section_name, info_of. rewrite Nat2Z.id. reflexivity. Qed.
  Lemma written_ok n zs : (exists f, In f (kept B S mp st) /\ section_of B (Z.of_nat f) = n) -> OrderAll L (map (graph mp st) (fl n)) = Ok zs ->
    section_wf cfgs (map (to_info ids scores) zs) /\ paths_ok v cfgs (map (to_info ids scores) zs) /\ texts_ok v cfgs (n, map (to_info ids scores) zs).
  Proof.
    intros HN OA. pose proof (info_wf v B S mp BG SG SH false has branches falls st HAS BO CO CE TR n (fl n) (fl_nodup n) (fl_In n) zs scores OA) as WF.
    assert (FF : forall z g, In z zs -> cfgs (z_func z) = Some g -> exists f s, In f (mp_selected mp) /\ aget Nat.eqb f (x_info B) = Some s /\ w_names g = si_aliases s /\ w_module g = x_module B f /\ w_paths g = []).
    { intros z g Hz E. destruct (info_func v B S mp BG SG SH false has branches falls st HAS BO CO CE TR n (fl n) (fl_nodup n) (fl_In n) zs scores OA z Hz) as [f [Hf Ef]].
      rewrite Ef, (cfg_of B S mp st n (fl n) (fl_In n) f Hf) in E. injection E as <-. cbn [w_names w_module w_paths].
      assert (Hs : In f (mp_selected mp)) by (apply fl_In in Hf as [Hf _]; unfold kept in Hf; apply filter_In in Hf as [Hf _]; exact Hf).
      destruct (sh_in _ _ _ SH f Hs) as [_ [s Es]]. exists f, s. split; [exact Hs|]. split; [exact Es|]. split; [unfold aliases_of; rewrite Es; reflexivity|auto]. }
    split; [exact WF|]. split.
    - intros _ z g Hz E. apply in_map_iff in Hz as [z0 [<- Hz]]. destruct (FF z0 g Hz E) as [f [s [_ [_ [_ [_ W]]]]]]. exact W.
    - constructor; cbn [fst snd].
      + destruct HN as [f [Hf <-]]. unfold kept in Hf. apply filter_In in Hf as [Hf _]. destruct (sh_in _ _ _ SH f Hf) as [_ [s Es]]. unfold section_of. rewrite Nat2Z.id. rewrite Es. exact (proj1 (proj2 (bg_names _ _ BG f s Es))).
      + intros z Hz. apply in_map_iff in Hz as [z0 [<- Hz]]. apply SC.
      + intros z c b Hz Hc Hb. apply in_map_iff in Hz as [z0 [<- Hz]]. cbn [to_info wi_clusters] in Hc. apply in_map_iff in Hc as [y [<- Hy]]. cbn [wc_blocks] in Hb. apply in_map_iff in Hb as [m [<- Hm]]. cbn [block_id i_bb i_clone]. split; [apply (bg_id _ _ BG)|lia].
      + intros z g Hz E. apply in_map_iff in Hz as [z0 [<- Hz]]. destruct (FF z0 g Hz E) as [f [s [_ [Es [-> _]]]]]. destruct (bg_names _ _ BG f s Es) as [N1 [_ N2]]. split; [exact N1|]. intros m Hm. apply N2, Hm.
      + intros V z g m Hz E Hm. apply in_map_iff in Hz as [z0 [<- Hz]]. destruct (FF z0 g Hz E) as [f [s [_ [Es [EN _]]]]]. rewrite EN in Hm. destruct (bg_names _ _ BG f s Es) as [_ [_ N2]]. apply N2; assumption.
      + intros z g m Hz E Hm. apply in_map_iff in Hz as [z0 [<- Hz]]. destruct (FF z0 g Hz E) as [f [s [_ [Es [_ [EM _]]]]]]. rewrite EM in Hm. exact (bg_module _ _ BG f m Hm).
      + intros z g p Hz E Hp. apply in_map_iff in Hz as [z0 [<- Hz]]. destruct (FF z0 g Hz E) as [f [s [_ [_ [_ [_ W]]]]]]. rewrite W in Hp. destruct Hp.
  Qed.
  (** The entries of all sections. *)
  Lemma all_entries : forall secs, StronglySorted before (map fst secs) -> (forall s, In s secs -> OrderAll L (map (graph mp st) (fl (fst s))) = Ok (snd s)) ->
    exists il, (forall f, In f il <-> In f (kept B S mp st) /\ In (section_name B f) (map fst secs)) /\
      StronglySorted (fun f g => before (section_name B f) (section_name B g) \/ (section_name B f = section_name B g /\ (f < g)%nat)) il /\
      Forall2 (function_entry B S mp branches falls) il (flat_map (fun s => map (entry_of cfgs) (snd s)) (written secs)) /\
      il = map (fun w => Z.to_nat (wi_func w)) (flat_map snd (written secs)).
  Proof.
    induction secs as [|[n zs] secs IH]; intros SS OA; cbn [map flat_map fst snd] in *.
    - exists []. split; [intros f; cbn; tauto|]. split; [constructor|split; [constructor|reflexivity]].
    - inversion SS as [|? ? S1 S2]; subst. destruct (IH S1 (fun s Hs => OA s (or_intror Hs))) as [il [I1 [I2 [I3 I4]]]].
      destruct (section_entries v B S mp BG SG SH false has branches falls st HAS BO CO CE TR n (fl n) (fl_nodup n) (fl_In n) zs scores (OA (n, zs) (or_introl eq_refl))) as [kl [K1 [K2 [K3 K4]]]].
      exists (kl ++ il). split; [|split; [|split]].
      + intros f. rewrite in_app_iff, K2, fl_In, I1, section_name_eq. cbn [In]. split; [intros [[H <-]|[H1 H2]]; auto|intros [H [E|E]]; auto].
      + assert (KN : forall f, In f kl -> section_name B f = n) by (intros f Hf; apply K2, fl_In in Hf as [_ Hf]; rewrite <- section_name_eq; exact Hf).
        assert (IB : forall f, In f il -> before n (section_name B f)) by (intros f Hf; apply I1 in Hf as [_ Hf]; rewrite Forall_forall in S2; apply S2, Hf).
        clear - K1 I2 KN IB. induction K1 as [|f l K1 IH F]; cbn [List.app]; [exact I2|]. constructor; [apply IH; intros; apply KN; right; assumption|]. apply Forall_forall. intros g Hg. apply in_app_or in Hg as [Hg|Hg].
        * right. rewrite (KN f (or_introl eq_refl)), (KN g (or_intror Hg)). split; [reflexivity|]. rewrite Forall_forall in F. exact (F g Hg).
        * left. rewrite (KN f (or_introl eq_refl)). apply IB, Hg.
      + apply Forall2_app; [exact K3|exact I3].
      + rewrite map_app. f_equal; assumption.
  Qed.

  Lemma run_ok verbose : exists secs cc ld es, layout_sections B S mp st (section_names B (kept B S mp st)) = Ok secs /\
    Write verbose v cfgs (written secs) = Ok (cc, ld) /\ read_file cc = Some es /\ cluster_file B S mp branches falls es.
  Proof.
    destruct (section_names_ok B (kept B S mp st)) as [SN SS]. destruct (sections_run (section_names B (kept B S mp st))) as [secs [E [M OA]]].
    destruct (C53_read_back verbose v cfgs (written secs)) as [cc [ld [W R]]].
    { intros s Hs. apply in_map_iff in Hs as [[n zs] [<- Hs]]. cbn [fst snd]. apply written_ok; [apply SN; rewrite <- M; exact (in_map fst _ _ Hs)|exact (OA _ Hs)]. }
    rewrite <- M in SS. destruct (all_entries secs SS OA) as [il [I1 [I2 [I3 _]]]].
    exists secs, cc, ld. eexists. split; [exact E|]. split; [exact W|]. split; [exact R|]. exists il. split; [|split; [exact I2|exact I3]].
    intros f. rewrite I1, (kept_In v B S mp BG SG SH false has branches falls st HAS BO CO CE f). split; [intros [H _]; exact H|]. intros H. split; [exact H|].
    rewrite M. apply SN. exists f. split; [apply (kept_In v B S mp BG SG SH false has branches falls st HAS BO CO CE f); exact H|apply section_name_eq].
  Qed.

  (** The symbol ordering file. *)
  Lemma before_irrefl n : ~ before n n.
  Proof. intros H. remember n as m eqn:E in H at 2. revert E. induction H as [x b|x y a b H|x a b H IH]; intros E; [discriminate|injection E as <- _; lia|injection E as E; apply IH, E]. Qed.
  Hypothesis UN : forall f g n, In f (mp_selected mp) -> In g (mp_selected mp) -> f <> g -> In n (aliases_of (x_info B) f) -> In n (aliases_of (x_info B) g) -> False.
  Hypothesis CL : clean_names B.
  Lemma run_symbols verbose secs cc ld : layout_sections B S mp st (section_names B (kept B S mp st)) = Ok secs ->
    Write verbose v cfgs (written secs) = Ok (cc, ld) -> exists symbols, ld = lines symbols /\ NoDup symbols.
  Proof.
    intros E W. destruct (section_names_ok B (kept B S mp st)) as [SN SS]. destruct (sections_run (section_names B (kept B S mp st))) as [secs' [E' [M OA]]]. rewrite E in E'. injection E' as <-.
    rewrite <- M in SS. destruct (all_entries secs SS OA) as [il [I1 [I2 [I3 I4]]]].
    assert (NI : NoDup il). { apply (sorted_NoDup _ _) in I2; [exact I2|]. intros f [H|[_ H]]; [exact (before_irrefl _ H)|lia]. }
    assert (NW : forall w, In w (flat_map snd (written secs)) -> exists f, In f (mp_selected mp) /\ Z.to_nat (wi_func w) = f /\ names_of cfgs w = aliases_of (x_info B) f).
    { intros w Hw. apply in_flat_map in Hw as [s [Hs Hw]]. apply in_map_iff in Hs as [[n zs] [<- Hs]]. cbn [fst snd] in Hw. apply in_map_iff in Hw as [z [<- Hz]].
      destruct (info_func v B S mp BG SG SH false has branches falls st HAS BO CO CE TR n (fl n) (fl_nodup n) (fl_In n) zs scores (OA _ Hs) z Hz) as [f [Hf Ef]].
      exists f. split; [apply fl_In in Hf as [Hf _]; unfold kept in Hf; apply filter_In in Hf as [Hf _]; exact Hf|]. unfold names_of. cbn [to_info wi_func]. rewrite Ef, (cfg_of B S mp st n (fl n) (fl_In n) f Hf). cbn [w_names]. split; [apply Nat2Z.id|reflexivity]. }
    assert (AL : forall w n, In w (flat_map snd (written secs)) -> In n (names_of cfgs w) -> In n (all_names B)).
    { intros w n Hw Hn. destruct (NW w Hw) as [f [_ [_ EN]]]. rewrite EN in Hn. unfold aliases_of, info_of in Hn. destruct (aget Nat.eqb f (x_info B)) as [s|] eqn:Es; [|destruct Hn].
      unfold all_names. apply in_flat_map. exists (f, s). split; [|exact Hn]. apply (aget_In Nat.eqb Nat.eqb_spec). exact Es. }
    destruct (C33_no_symbol_twice verbose v cfgs (written secs)) as [cc' [symbols [W' N]]].
    - intros s Hs. apply in_map_iff in Hs as [[n zs] [<- Hs]]. cbn [fst snd]. destruct (written_ok n zs) as [A1 [A2 _]]; [apply SN; rewrite <- M; exact (in_map fst _ _ Hs)|exact (OA _ Hs)|]. auto.
    - constructor.
      + apply NoDup_flat_map_intro.
        * rewrite I4 in NI. apply NoDup_map_inv in NI. exact NI.
        * intros w Hw. destruct (NW w Hw) as [f [_ [_ ->]]]. unfold aliases_of, info_of. destruct (aget Nat.eqb f (x_info B)) as [s|] eqn:Es; [|constructor]. exact (cn_once _ CL f s Es).
        * intros w u n Hw Hu Hn Hm. destruct (NW w Hw) as [f [Hf [Ef EN]]]. destruct (NW u Hu) as [g [Hg [Eg EM]]]. rewrite EN in Hn. rewrite EM in Hm.
          destruct (Nat.eq_dec f g) as [->|D]; [|destruct (UN f g n Hf Hg D Hn Hm)]. rewrite I4 in NI. exact (NoDup_map_eq (fun w => Z.to_nat (wi_func w)) _ w u NI Hw Hu (eq_trans Ef (eq_sym Eg))).
      + intros n m k Hn Hm. apply in_flat_map in Hn as [w [Hw Hn]]. apply in_flat_map in Hm as [u [Hu Hm]]. apply (cn_part _ CL); eauto.
      + intros n m Hn Hm. apply in_flat_map in Hn as [w [Hw Hn]]. apply in_flat_map in Hm as [u [Hu Hm]]. apply (cn_cold _ CL); eauto.
    - intros s z b b' Hs Hz. apply in_map_iff in Hs as [[n zs] [<- Hs]]. cbn [fst snd] in Hz. apply in_map_iff in Hz as [z0 [<- Hz]].
      apply (one_entry v B S mp BG SG SH false has branches falls st HAS BO CO CE TR n (fl n) (fl_nodup n) (fl_In n) zs scores (OA _ Hs) z0 b b' Hz).
    - rewrite W in W'. injection W' as _ E2. exists symbols. auto.
  Qed.
End Run.

Lemma in_handles hs h : existsb (handle_eqb h) hs = true <-> In h hs.
Proof. rewrite existsb_exists. split; [intros [x [Hx E]]; destruct (handle_eqb_spec h x); [subst; exact Hx|discriminate]|intros H; exists h; split; [exact H|destruct (handle_eqb_spec h h); congruence]]. Qed.

Lemma compute_cluster_file verbose v scores B S addrs agg :
  binary_good v B -> settings_good S -> (forall a, In a addrs -> 0 <= a < w64) ->
  (forall z, free [10] (scores z) /\ hd 0 (scores z) = 35) ->
  (forall mp, BuildMapper (s_names S) (s_text_only S) (x_funcs B) (x_info B) (Some (s_addr S addrs)) = Ok mp ->
     exists branches falls, agg mp = Ok (branches, falls) /\ counters_good branches falls) ->
  exists mp branches falls, BuildMapper (s_names S) (s_text_only S) (x_funcs B) (x_info B) (Some (s_addr S addrs)) = Ok mp /\ agg mp = Ok (branches, falls) /\
    (10 * transitions mp branches falls < 2 ^ 31 ->
     (ComputeProfile false verbose v scores B S addrs agg = Ok None /\ exists a b c d, s_reject S a b c d = true) \/
     exists cc ld es, ComputeProfile false verbose v scores B S addrs agg = Ok (Some (cc, ld)) /\ read_file cc = Some es /\ cluster_file B S mp branches falls es).
Proof.
  intros BG SG AW SC AG. assert (AO : addrs_ok (Some (s_addr S addrs))).
  { intros a Ha. apply (Permutation_in _ (sg_addr _ SG _)) in Ha. apply AW, Ha. }
  destruct (C34_build_succeeds (s_names S) (s_text_only S) (x_funcs B) (x_info B) _ (bg_ok _ _ BG) AO) as [mp EM].
  { intros i Hi E. pose proof (bg_blocks _ _ BG i Hi) as N. unfold nents in N. rewrite E in N. cbn in N. lia. }
  destruct (AG mp EM) as [branches [falls [EA CG]]].
  exists mp, branches, falls. split; [exact EM|]. split; [exact EA|]. intros TR. pose proof (build_shape _ _ _ _ _ _ (sg_names _ SG) (bg_ok _ _ BG) AO EM) as SH.
  set (has := fun h => existsb (handle_eqb h) (mp_handles mp)). assert (HAS : forall h, has h = true <-> In h (mp_handles mp)) by (intros; apply in_handles).
  assert (BO : builder_ok mp has). { split; [|intros h Hh; apply HAS, Hh]. exists (s_names S), (s_text_only S), (x_funcs B), (x_info B). eexists. split; [exact (bg_ok _ _ BG)|]. split; [exact AO|exact EM]. }
  assert (CN : forall c, In c (branches ++ falls) -> 0 <= snd c) by (intros c Hc; apply (CG c Hc)).
  pose proof (transitions_ge mp branches falls CN) as TG.
  assert (PB : 0 <= sum_if (fun _ : counter => true) branches) by (apply sum_all_nonneg; intros; apply CN, in_or_app; auto).
  assert (PF : 0 <= sum_if (fun _ : counter => true) falls) by (apply sum_all_nonneg; intros; apply CN, in_or_app; auto).
  assert (CO : counts_ok branches falls) by (split; [exact CN|lia]).
  destruct (C36_succeeds has mp (s_falls S) (s_reject S) branches falls BO (sg_falls _ SG) CN ltac:(lia)) as [r CE].
  unfold ComputeProfile. rewrite EM. cbn [obind]. rewrite EA. cbn [obind fst snd]. fold has. rewrite CE. cbn [obind]. destruct r as [st|]; [right|left; split; [reflexivity|exact (create_none _ _ _ _ _ _ _ _ CE)]].
  destruct (run_ok v B S mp BG SG SH has branches falls st HAS BO CO CE TR scores SC verbose) as [secs [cc [ld [es [E [W [R C]]]]]]].
  exists cc, ld, es. rewrite E. cbn [obind]. change (fun z : finfo => WInfo (z_func z) (map (fun y => WCluster (y_index y) (map (block_id B mp) (y_blocks y))) (z_clusters z)) (scores z) (z_cold z)) with (to_info (block_id B mp) scores).
  rewrite W. cbn [obind]. auto.
Qed.
Lemma unique_addresses_word branches falls : counters_good branches falls -> forall a, In a (GetUniqueAddresses branches falls) -> 0 <= a < w64.
Proof. intros CG a Ha. apply C69_addresses in Ha as [f [t [w [Hc E]]]]. destruct (CG _ Hc) as [_ [G1 G2]]. cbn [fst snd] in *. destruct E as [-> | ->]; assumption. Qed.

(** For a good binary, any options, any hash orders and any samples whose total
    fits into int, the run ends with the error status of the edge check or with
    a cluster file that lists the hot functions, section by section, each with
    its blocks. *)
Theorem C69_cluster_file verbose v scores B S branches falls :
  binary_good v B -> settings_good S -> counters_good branches falls ->
  (forall z, free [10] (scores z) /\ hd 0 (scores z) = 35) ->
  exists mp, BuildMapper (s_names S) (s_text_only S) (x_funcs B) (x_info B) (Some (s_addr S (GetUniqueAddresses branches falls))) = Ok mp /\
    (10 * transitions mp branches falls < 2 ^ 31 ->
     (Propeller false verbose v scores B S branches falls = Ok None /\ exists a b c d, s_reject S a b c d = true) \/
     exists cc ld es, Propeller false verbose v scores B S branches falls = Ok (Some (cc, ld)) /\ read_file cc = Some es /\ cluster_file B S mp branches falls es).
Proof.
  intros BG SG CG SC.
  destruct (compute_cluster_file verbose v scores B S (GetUniqueAddresses branches falls) (fun _ => Ok (branches, falls)) BG SG (unique_addresses_word _ _ CG) SC) as [mp [b [f [EM [EA H]]]]].
  { intros mp _. exists branches, falls. split; [reflexivity|exact CG]. }
  injection EA as <- <-. exists mp. split; [exact EM|exact H].
Qed.
Print Assumptions C69_cluster_file.

(** If no name looks like a part of another function, the symbol ordering file
    lists no symbol twice. *)
Theorem C69_symbols verbose v scores B S branches falls mp cc ld :
  binary_good v B -> settings_good S -> counters_good branches falls -> clean_names B ->
  (forall z, free [10] (scores z) /\ hd 0 (scores z) = 35) ->
  BuildMapper (s_names S) (s_text_only S) (x_funcs B) (x_info B) (Some (s_addr S (GetUniqueAddresses branches falls))) = Ok mp ->
  10 * transitions mp branches falls < 2 ^ 31 ->
  Propeller false verbose v scores B S branches falls = Ok (Some (cc, ld)) ->
  exists symbols, ld = lines symbols /\ NoDup symbols.
Proof.
  intros BG SG CG CL SC EM TR. assert (AO : addrs_ok (Some (s_addr S (GetUniqueAddresses branches falls)))).
  { intros a Ha. apply (Permutation_in _ (sg_addr _ SG _)) in Ha. apply C69_addresses in Ha as [f [t [w [Hc E]]]]. destruct (CG _ Hc) as [_ [G1 G2]]. cbn [fst snd] in *. destruct E as [-> | ->]; assumption. }
  pose proof (build_shape _ _ _ _ _ _ (sg_names _ SG) (bg_ok _ _ BG) AO EM) as SH.
  assert (UN : forall f g n, In f (mp_selected mp) -> In g (mp_selected mp) -> f <> g -> In n (aliases_of (x_info B) f) -> In n (aliases_of (x_info B) g) -> False).
  { pose proof EM as EM'. unfold BuildMapper in EM'. destruct (SelectFunctions _ _ _ _ _) as [[sel d]| |] eqn:ES; cbn [obind] in EM'; try discriminate. destruct (build_loop _ _ _ _) as [hs| |]; cbn [obind] in EM'; try discriminate. injection EM' as <-. cbn [mp_selected].
    exact (proj2 (C47_unique_names _ _ _ _ _ _ _ (sg_names _ SG) (bg_ok _ _ BG) AO ES)). }
  set (has := fun h => existsb (handle_eqb h) (mp_handles mp)). assert (HAS : forall h, has h = true <-> In h (mp_handles mp)) by (intros; apply in_handles).
  assert (BO : builder_ok mp has). { split; [|intros h Hh; apply HAS, Hh]. exists (s_names S), (s_text_only S), (x_funcs B), (x_info B). eexists. split; [exact (bg_ok _ _ BG)|]. split; [exact AO|exact EM]. }
  assert (CN : forall c, In c (branches ++ falls) -> 0 <= snd c) by (intros c Hc; apply (CG c Hc)).
  pose proof (transitions_ge mp branches falls CN) as TG.
  assert (PB : 0 <= sum_if (fun _ : counter => true) branches) by (apply sum_all_nonneg; intros; apply CN, in_or_app; auto).
  assert (PF : 0 <= sum_if (fun _ : counter => true) falls) by (apply sum_all_nonneg; intros; apply CN, in_or_app; auto).
  assert (CO : counts_ok branches falls) by (split; [exact CN|lia]).
  destruct (C36_succeeds has mp (s_falls S) (s_reject S) branches falls BO (sg_falls _ SG) CN ltac:(lia)) as [r CE].
  unfold Propeller, ComputeProfile. rewrite EM. cbn [obind fst snd]. fold has. rewrite CE. cbn [obind]. destruct r as [st|]; [|discriminate].
  destruct (run_ok v B S mp BG SG SH has branches falls st HAS BO CO CE TR scores SC verbose) as [secs [cc' [ld' [es [E [W _]]]]]].
  rewrite E. cbn [obind]. change (fun z : finfo => WInfo (z_func z) (map (fun y => WCluster (y_index y) (map (block_id B mp) (y_blocks y))) (z_clusters z)) (scores z) (z_cold z)) with (to_info (block_id B mp) scores).
  rewrite W. cbn [obind]. intros X. injection X as <- <-.
  exact (run_symbols v B S mp BG SG SH has branches falls st HAS BO CO CE TR scores SC UN CL verbose secs cc' ld' E W).
Qed.
Print Assumptions C69_symbols.

(** A sampled branch makes both of its blocks executed, a sampled fall-through
    all blocks it runs through. *)
Lemma sum_if_pos P cs c : (forall x, In x cs -> 0 <= snd x) -> In c cs -> P c = true -> snd c <= sum_if P cs.
Proof.
  induction cs as [|d cs IH]; intros H Hc E; [destruct Hc|]. cbn [sum_if]. pose proof (H d (or_introl eq_refl)). 
  assert (0 <= sum_if P cs). { clear - H. induction cs as [|e cs IH]; cbn [sum_if]; [lia|]. pose proof (H e (or_intror (or_introl eq_refl))). assert (0 <= sum_if P cs) by (apply IH; intros x [Hx|Hx]; apply H; [left; exact Hx|right; right; exact Hx]). destruct (P e); lia. }
  destruct Hc as [->|Hc]; [rewrite E; lia|]. specialize (IH (fun x Hx => H x (or_intror Hx)) Hc E). destruct (P d); lia.
Qed.
Theorem C69_sampled_is_executed mp branches falls c : counters_good branches falls -> 0 < snd c ->
  (forall i j, In c branches -> branch_ends mp c = Some (i, j) -> (i < blk_count mp)%nat -> (j < blk_count mp)%nat ->
    executed mp branches falls i /\ executed mp branches falls j) /\
  (forall i j k, In c falls -> sampled_path mp c = Some (i, j) -> (j < blk_count mp)%nat -> fallthrough_path mp i j -> (i <= k <= j)%nat -> i <> j ->
    executed mp branches falls k).
Proof.
  intros CG P. assert (NB : forall x, In x branches -> 0 <= snd x) by (intros x Hx; apply CG, in_or_app; auto). assert (NF : forall x, In x falls -> 0 <= snd x) by (intros x Hx; apply CG, in_or_app; auto).
  assert (G : forall Q cs, (forall x, In x cs -> 0 <= snd x) -> 0 <= sum_if Q cs) by (intros Q cs H; induction cs as [|e cs IH]; cbn [sum_if]; [lia|]; pose proof (H e (or_introl eq_refl)); specialize (IH (fun x Hx => H x (or_intror Hx))); destruct (Q e); lia).
  split.
  - intros i j Hc E Hi Hj. assert (X : 0 < expected_weight mp branches falls i j).
    { unfold expected_weight. pose proof (sum_if_pos (fun c => is_pair i j (branch_ends mp c)) branches c NB Hc ltac:(cbv beta; rewrite E; cbn [is_pair]; rewrite !Nat.eqb_refl; reflexivity)).
      pose proof (G (fun c => passes mp i (implied_path mp c)) branches NB). pose proof (G (fun c => passes mp i (sampled_path mp c)) falls NF). cbv beta in *; match goal with |- context [if ?b then _ else _] => destruct b end; lia. }
    split; [exists j|exists i]; (split; [assumption|]); [left|right]; lia.
  - intros i j k Hc E Hj FP Hk N. assert (X : forall a, (i <= a < j)%nat -> 0 < expected_weight mp branches falls a (1 + a)).
    { intros a Ha. unfold expected_weight. change (1 + a)%nat with (Datatypes.S a). rewrite Nat.eqb_refl.
      assert (PA : passes mp a (sampled_path mp c) = true). { rewrite E. cbn [passes]. apply C35_fallthrough in FP. rewrite FP. destruct (Nat.leb_spec i a), (Nat.ltb_spec a j); cbn; lia. }
      pose proof (sum_if_pos (fun c => passes mp a (sampled_path mp c)) falls c NF Hc PA). pose proof (G (fun c => passes mp a (implied_path mp c)) branches NB). pose proof (G (fun c => is_pair a (Datatypes.S a) (branch_ends mp c)) branches NB). lia. }
    destruct (Nat.eq_dec k j) as [->|D].
    + exists (j - 1)%nat. split; [lia|]. right. specialize (X (j - 1)%nat ltac:(lia)). replace (1 + (j - 1))%nat with j in X by lia. lia.
    + exists (1 + k)%nat. split; [lia|]. left. specialize (X k ltac:(lia)). lia.
Qed.
Print Assumptions C69_sampled_is_executed.

(** A function with a sampled address, a name and names no other function has is
    looked at. *)
Theorem C69_sampled_functions S B branches falls mp from to w a f s :
  binary_ok (x_funcs B) -> settings_good S -> counters_good branches falls ->
  BuildMapper (s_names S) (s_text_only S) (x_funcs B) (x_info B) (Some (s_addr S (GetUniqueAddresses branches falls))) = Ok mp ->
  In (from, to, w) (branches ++ falls) -> a = from \/ a = to ->
  (f < List.length (x_funcs B))%nat -> covers (x_funcs B) f a ->
  aget Nat.eqb f (x_info B) = Some s -> (s_text_only S = true -> si_section s = dot_text) -> NoDup (si_aliases s) ->
  (forall g t n, g <> f -> aget Nat.eqb g (x_info B) = Some t -> In n (si_aliases s) -> ~ In n (si_aliases t)) ->
  In f (mp_selected mp).
Proof.
  intros BK SG CG EM Hc Ea Hf Cov Es Tx ND UN. assert (AO : addrs_ok (Some (s_addr S (GetUniqueAddresses branches falls)))).
  { intros x Hx. apply (Permutation_in _ (sg_addr _ SG _)) in Hx. apply C69_addresses in Hx as [f' [t' [w' [Hc' E]]]]. destruct (CG _ Hc') as [_ [G1 G2]]. cbn [fst snd] in *. destruct E as [-> | ->]; assumption. }
  unfold BuildMapper in EM. destruct (SelectFunctions _ _ _ _ _) as [[sel d]| |] eqn:ES; cbn [obind] in EM; try discriminate. destruct (build_loop _ _ _ _) as [hs| |]; cbn [obind] in EM; try discriminate. injection EM as <-. cbn [mp_selected].
  apply (C47_unconflicted_kept _ _ _ _ _ _ _ f (sg_names _ SG) BK AO ES).
  - split; [exact Hf|]. split; [|exists s; split; [exact Es|exact Tx]]. exists a. split; [|exact Cov]. apply (Permutation_in _ (Permutation_sym (sg_addr _ SG _))). apply C69_addresses. eauto.
  - unfold aliases_of, info_of. rewrite Es. exact ND.
  - intros g n [_ [_ [t [Et _]]]] D Hn Hm. unfold aliases_of, info_of in Hn, Hm. rewrite Es in Hn. unfold info_of in Et. rewrite Et in Hm. exact (UN g t n D Et Hn Hm).
Qed.
Print Assumptions C69_sampled_functions.

(** A jump or fall-through edge never leaves its function and never goes to a
    function entry; only calls and returns do. *)
Theorem C69_jumps_stay dbg v B S mp branches falls st h1 h2 w :
  binary_good v B -> settings_good S -> counters_good branches falls -> sum_if (fun _ => true) branches + sum_if (fun _ => true) falls < 2 ^ 31 ->
  BuildMapper (s_names S) (s_text_only S) (x_funcs B) (x_info B) (Some (s_addr S (GetUniqueAddresses branches falls))) = Ok mp ->
  CreateEdges dbg [] (fun h => existsb (handle_eqb h) (mp_handles mp)) mp (s_falls S) (s_reject S) branches falls = Ok (Some st) ->
  In ((h1, h2), (w, KBranchOrFallthrough)) (cs_edges st) -> bh_func h1 = bh_func h2 /\ bh_bb h2 <> 0%nat.
Proof.
  intros BG SG CG SM EM CE H. assert (AO : addrs_ok (Some (s_addr S (GetUniqueAddresses branches falls)))).
  { intros x Hx. apply (Permutation_in _ (sg_addr _ SG _)) in Hx. apply C69_addresses in Hx as [f' [t' [w' [Hc' E]]]]. destruct (CG _ Hc') as [_ [G1 G2]]. cbn [fst snd] in *. destruct E as [-> | ->]; assumption. }
  pose proof (build_shape _ _ _ _ _ _ (sg_names _ SG) (bg_ok _ _ BG) AO EM) as SH.
  assert (BO : builder_ok mp (fun h => existsb (handle_eqb h) (mp_handles mp))). { split; [|intros h Hh; apply in_handles, Hh]. exists (s_names S), (s_text_only S), (x_funcs B), (x_info B). eexists. split; [exact (bg_ok _ _ BG)|]. split; [exact AO|exact EM]. }
  assert (CO : counts_ok branches falls) by (split; [intros c Hc; apply (CG c Hc)|exact SM]).
  destruct (edges_In (x_funcs B) (x_info B) mp SH (bg_first _ _ BG) dbg _ _ _ branches falls st (in_handles (mp_handles mp)) BO (sg_falls _ SG) CO CE _ _ _ H) as [a [b [Ha [Hb [E [_ K]]]]]].
  injection E as -> ->. exact (K eq_refl).
Qed.
Print Assumptions C69_jumps_stay.

(** The layout sees each pair of blocks with samples as one edge, at both ends,
    with the weight of the samples; a call edge stands for a sampled call, a
    return edge for a sampled return. *)
Definition sampled_as (mp : mapper) (branches : list counter) (i j : nat) (k : CfgFreqModel.edge_kind) : Prop :=
  exists c, In c branches /\ branch_ends mp c = Some (i, j) /\ branch_kind mp c = Some k.
Theorem C69_edges dbg v B S mp branches falls st i e :
  binary_good v B -> settings_good S -> counters_good branches falls -> sum_if (fun _ => true) branches + sum_if (fun _ => true) falls < 2 ^ 31 ->
  BuildMapper (s_names S) (s_text_only S) (x_funcs B) (x_info B) (Some (s_addr S (GetUniqueAddresses branches falls))) = Ok mp ->
  CreateEdges dbg [] (fun h => existsb (handle_eqb h) (mp_handles mp)) mp (s_falls S) (s_reject S) branches falls = Ok (Some st) ->
  (i < blk_count mp)%nat -> In e (p_outs (program B S mp st) (Z.of_nat i)) ->
  exists j, (j < blk_count mp)%nat /\ ce_sink e = Z.of_nat j /\ ce_weight e = expected_weight mp branches falls i j /\ In e (p_ins (program B S mp st) (Z.of_nat j)) /\
    (forall e', In e' (p_outs (program B S mp st) (Z.of_nat i)) -> ce_sink e' = ce_sink e -> e' = e) /\
    (ce_kind e = ECall -> sampled_as mp branches i j KCall) /\ (ce_kind e = EReturn -> sampled_as mp branches i j KRet) /\
    (ce_kind e = EBranch -> sampled_as mp branches i j KBranchOrFallthrough \/ j = (i + 1)%nat).
Proof.
  intros BG SG CG SM EM CE Hi H. assert (AO : addrs_ok (Some (s_addr S (GetUniqueAddresses branches falls)))).
  { intros x Hx. apply (Permutation_in _ (sg_addr _ SG _)) in Hx. apply C69_addresses in Hx as [f' [t' [w' [Hc' E]]]]. destruct (CG _ Hc') as [_ [G1 G2]]. cbn [fst snd] in *. destruct E as [-> | ->]; assumption. }
  pose proof (build_shape _ _ _ _ _ _ (sg_names _ SG) (bg_ok _ _ BG) AO EM) as SH.
  assert (BO : builder_ok mp (fun h => existsb (handle_eqb h) (mp_handles mp))). { split; [|intros h Hh; apply in_handles, Hh]. exists (s_names S), (s_text_only S), (x_funcs B), (x_info B). eexists. split; [exact (bg_ok _ _ BG)|]. split; [exact AO|exact EM]. }
  assert (CO : counts_ok branches falls) by (split; [intros c Hc; apply (CG c Hc)|exact SM]).
  pose proof (all_edges_In v B S mp BG SG SH dbg _ branches falls st (in_handles (mp_handles mp)) BO CO CE) as AE.
  apply (outs_In B S mp st) in H as [H Es]. pose proof H as H0. apply AE in H as [a [b [kd [Ha [Hb [Hk ->]]]]]]. cbn [ce_src ce_sink ce_weight ce_kind] in *. assert (a = i) by lia. subst a.
  exists b. split; [exact Hb|]. split; [reflexivity|]. split; [reflexivity|]. split; [apply (ins_In B S mp st); split; [exact H0|reflexivity]|]. split.
  - intros e' He' E. apply (outs_In B S mp st) in He' as [He' Es']. apply AE in He' as [a' [b' [kd' [Ha' [Hb' [Hk' ->]]]]]]. cbn [ce_src ce_sink] in *. assert (a' = i) by lia. assert (b' = b) by lia. subst a' b'.
    pose proof (edges_nodup mp dbg _ _ _ branches falls st BO (sg_falls _ SG) CO CE) as ND. 
    assert (X := aget_NoDup_In ekey_eqb ekey_eqb_spec _ _ _ ND Hk). assert (Y := aget_NoDup_In ekey_eqb ekey_eqb_spec _ _ _ ND Hk'). rewrite X in Y. injection Y as <-. reflexivity.
  - pose proof (C36_kind _ _ _ _ _ _ _ _ _ i b _ _ BO (sg_falls _ SG) CO CE Hi Hb Hk) as K.
    destruct kd; cbn [kind_of_edge]; (split; [|split]); intros D; try discriminate; (destruct K as [K|[K1 [K2 _]]]; [try exact K; try (left; exact K)|try discriminate; right; lia]).
Qed.
Print Assumptions C69_edges.

(** The layout (whose scores are those of C32) gets the addresses and sizes of
    the blocks, and as inter-function edges exactly those to other functions. *)
Theorem C69_layout_input v B S mp st hot order i :
  binary_good v B -> any_order order -> addrs_ok hot -> BuildMapper order (s_text_only S) (x_funcs B) (x_info B) hot = Ok mp -> (i < blk_count mp)%nat ->
  l_addr (layout_params B S mp st) (Z.of_nat i) = blk_start mp i /\
  p_size (program B S mp st) (Z.of_nat i) = blk_end mp i - blk_start mp i /\
  p_lp (program B S mp st) (Z.of_nat i) = x_lp B (blk_handle mp i) /\
  forall e, In e (l_inter (layout_params B S mp st) (graph mp st (blk_func mp i))) <->
    In e (all_edges mp st) /\ func_of mp (ce_src e) = Z.of_nat (blk_func mp i) /\ func_of mp (ce_sink e) <> Z.of_nat (blk_func mp i).
Proof.
  intros BG OR AO EM Hi. pose proof (build_shape _ _ _ _ _ _ OR (bg_ok _ _ BG) AO EM) as SH.
  cbn [l_addr layout_params p_size p_lp program]. rewrite handle_nat. split; [apply GetAddress_start; [exact (proj1 (C34_blocks _ _ _ _ _ _ (bg_ok _ _ BG) AO EM))|exact Hi]|]. split; [unfold blk_end, blk_start; fold (blk_handle mp i); unfold blk_entry; try fold (blk_handle mp i); lia|]. split; [reflexivity|].
  intros e. change (l_inter (layout_params B S mp st) (graph mp st (blk_func mp i))) with (inter_edges mp st (l_func (layout_params B S mp st) (graph mp st (blk_func mp i)))).
  rewrite (graph_func v B S mp BG SH st) by exact (proj1 (proj1 (shape_In _ _ _ SH _) (blk_In mp i Hi))).
  unfold inter_edges, stays. rewrite filter_In, Bool.andb_true_iff, Bool.negb_true_iff, Z.eqb_eq, Z.eqb_neq. split; [intros [H [E N]]; split; [exact H|]; split; [exact E|congruence]|intros [H [E N]]; split; [exact H|]; split; [exact E|congruence]].
Qed.
Print Assumptions C69_layout_input.

(** * An example *)
(** "foo" has five blocks, its second is a loop; it calls "bar" in another
    section; the last block of "foo" and "cold" are never reached. *)
Definition e_funcs : list func_map :=
  [FuncMap 16 [BBEntry 0 6 true false; BBEntry 6 4 true false; BBEntry 10 6 true false; BBEntry 16 4 false true; BBEntry 20 4 false true];
   FuncMap 64 [BBEntry 0 8 true false; BBEntry 8 8 false true];
   FuncMap 96 [BBEntry 0 16 false true]].
Definition e_text (s : string) : text := bytes s.
Definition e_info : info_map :=
  [(0%nat, SymInfo [e_text "foo"] (e_text ".text")); (1%nat, SymInfo [e_text "bar"; e_text "baz"] (e_text ".init")); (2%nat, SymInfo [e_text "cold"] (e_text ".text"))].
Definition e_binary : binary := Binary e_funcs (fun h => 2 * Z.of_nat (bh_bb h)) (fun _ => false) e_info (fun f => if (f =? 1)%nat then Some (e_text "m.cc") else None).
Definition e_settings (split : bool) : settings :=
  Settings false (fun e x => if x =? 0 then Z.max 0 (ce_weight e) else 0) false true 128 split true 64 true (fun f s => if s =? 0 then 0 else f / s) 0
    (fun _ _ _ _ => false) (fun l => l) (fun l => l) (fun l => l) (fun l => l) (fun l => l).
Definition e_branches : list counter := [(25, 22, 10); (31, 64, 3); (79, 32, 3)].
Definition e_falls : list counter := [(16, 25, 2); (22, 25, 9); (22, 31, 3); (64, 79, 3)].
Definition e_scores (z : finfo) : text := [35].
Definition e_mapper : mapper := Mapper [0; 1]%nat e_funcs
  [BbHandle 0 0; BbHandle 0 1; BbHandle 0 2; BbHandle 0 3; BbHandle 0 4; BbHandle 1 0; BbHandle 1 1].
Example C69_nonvacuous :
  binary_good V1 e_binary /\ settings_good (e_settings true) /\ counters_good e_branches e_falls /\ clean_names e_binary /\
  (forall z, free [10] (e_scores z) /\ hd 0 (e_scores z) = 35) /\
  BuildMapper (fun t => t) false e_funcs e_info (Some (GetUniqueAddresses e_branches e_falls)) = Ok e_mapper /\
  10 * transitions e_mapper e_branches e_falls < 2 ^ 31 /\
  match Propeller false false V1 e_scores e_binary (e_settings true) e_branches e_falls with
  | Ok (Some (cc, ld)) => read_file cc = Some [FEntry [e_text "bar"; e_text "baz"] (Some (e_text "m.cc")) [] [[(0, 0); (2, 0)]]; FEntry [e_text "foo"] None [] [[(0, 0); (2, 0); (4, 0); (6, 0)]]] /\
      ld = lines [e_text "bar"; e_text "baz"; e_text "foo"; e_text "foo.cold"]
  | _ => False
  end.
Proof.
  split; [|split; [|split; [|split; [|split; [|split; [|split]]]]]].
  - constructor.
    + unfold binary_ok, nents. cbn [e_binary x_funcs e_funcs List.length]. split; [|split; [|split; [|split]]].
      * intros [|[|[|f]]] Hf; cbn; lia.
      * intros [|[|[|f]]] b Hf Hb; cbn [nth fm_entries List.length] in Hb; [| | |lia]; (do 5 (destruct b as [|b]; [try (cbn in Hb; lia); vm_compute; intuition congruence|])); cbn in Hb; lia.
      * intros [|[|[|f]]] b b' Hf Hb; cbn [nth fm_entries List.length] in Hb; [| | |lia]; (do 5 (destruct b as [|b]; [try (cbn in Hb; lia); (do 5 (destruct b' as [|b']; [try (cbn in Hb; lia); vm_compute; intuition congruence|])); cbn in Hb; lia|])); cbn in Hb; lia.
      * intros [|[|[|f]]] [|[|[|g]]] Hf; try (cbn in Hf; lia); vm_compute; reflexivity.
      * intros [|[|[|f]]] [|[|[|g]]] b Hf Hb; try (cbn in Hf; lia); cbn [nth fm_entries List.length] in Hb; (do 5 (destruct b as [|b]; [try (cbn in Hb; lia); vm_compute; intuition congruence|])); cbn in Hb; lia.
    + intros [|[|[|f]]] Hf; cbn in *; lia.
    + intros [|[|[|f]]] Hf; cbn in *; try lia; reflexivity.
    + vm_compute. reflexivity.
    + intros f a b _ _ _ E. cbn [x_bb e_binary bh_bb] in E. lia.
    + intros h. cbn [x_bb e_binary]. lia.
    + intros [|[|[|f]]] s E; try discriminate; injection E as <-; (split; [discriminate|]); (split; [intros x Hx Hy; vm_compute in Hx; cbn in Hy; lia|]); intros n Hn; (split; [|discriminate]);
        intros x Hx Hy; cbn [si_aliases In] in Hn; (repeat destruct Hn as [<-|Hn]); try destruct Hn; vm_compute in Hx; cbn in Hy; lia.
    + intros [|[|[|f]]] m E; try discriminate. injection E as <-. intros x Hx Hy. vm_compute in Hx. cbn in Hy. lia.
  - constructor; try (intros l; reflexivity); [|cbn; lia]. intros e x. cbn [s_score e_settings]. destruct (x =? 0); lia.
  - intros c Hc. cbn in Hc. (repeat destruct Hc as [<-|Hc]); [vm_compute; intuition congruence ..|destruct Hc].
  - assert (AN : all_names e_binary = [e_text "foo"; e_text "bar"; e_text "baz"; e_text "cold"]) by reflexivity. constructor.
    + intros [|[|[|f]]] s E; try discriminate; injection E as <-; cbn [si_aliases]; repeat (constructor; [cbn; intuition discriminate|]); constructor.
    + intros n m k Hn _ E. rewrite AN in Hn. assert (X : In 95 n) by (rewrite E, !in_app_iff; right; left; vm_compute; tauto). cbn [In] in Hn. (repeat destruct Hn as [<-|Hn]); try destruct Hn; vm_compute in X; intuition discriminate.
    + intros n m Hn _ E. rewrite AN in Hn. assert (X : In 46 n) by (rewrite E, !in_app_iff; right; vm_compute; tauto). cbn [In] in Hn. (repeat destruct Hn as [<-|Hn]); try destruct Hn; vm_compute in X; intuition discriminate.
  - intros z. split; [intros x [<-|[]] [H|[]]; discriminate|reflexivity].
  - vm_compute. reflexivity.
  - vm_compute. reflexivity.
  - vm_compute. split; reflexivity.
Qed.
