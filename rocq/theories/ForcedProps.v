(** C26: forced fall-through paths. *)
From Verif Require Import Base ZMap ForcedModel ForcedSpec ForcedProofs.

Lemma zsorted_filter {V} (p : Z * V -> bool) m : zsorted m -> zsorted (filter p m).
Proof.
  induction 1 as [|k v m L SS IH]; cbn [filter]; [constructor|]. destruct (p (k, v)); [|exact IH]. constructor; [|exact IH].
  intros k' v' H. apply filter_In in H as [H _]. eapply L; exact H.
Qed.
Lemma existsb_Z x l : existsb (Z.eqb x) l = true <-> In x l.
Proof.
  rewrite existsb_exists. split.
  - intros [y [A B]]. apply Z.eqb_eq in B. subst. exact A.
  - intros H. exists x. split; [exact H|apply Z.eqb_refl].
Qed.
Lemma zsorted_fst_nodup {V} (m : list (Z * V)) : zsorted m -> NoDup (map fst m).
Proof.
  induction 1 as [|k v m L SS IH]; cbn [map fst]; [constructor|]. constructor; [|exact IH].
  intros H. apply in_map_iff in H as [[k' v'] [E H]]. cbn in E. subst. apply L in H. lia.
Qed.

Section Paths.
  Context (pn : list (Z * Z)) (SP : zsorted pn).
  Let f x := zfind x pn.
  Context (I : inj f) (AC : forall l, closed f l -> l = []).

  Lemma dom_key x y : f x = Some y -> In x (map fst pn).
  Proof. intros H. apply (zfind_In _ _ _ SP) in H. apply (in_map fst) in H. exact H. Qed.
  Lemma begins_iff b : In b (path_begins pn) <-> f b <> None /\ forall z, f z <> Some b.
  Proof.
    unfold path_begins. rewrite filter_In. split.
    - intros [A B]. split.
      + apply in_map_iff in A as [[k v] [E A]]. cbn in E. subst k. apply (zfind_In _ _ _ SP) in A. unfold f. congruence.
      + intros z Hz. apply (zfind_In _ _ _ SP) in Hz. apply (in_map snd) in Hz. cbn in Hz. apply existsb_Z in Hz. rewrite Hz in B. discriminate.
    - intros [A B]. split.
      + destruct (f b) as [c|] eqn:E; [|congruence]. eapply dom_key; exact E.
      + destruct (existsb (Z.eqb b) (map snd pn)) eqn:E; [|reflexivity]. exfalso. apply existsb_Z in E.
        apply in_map_iff in E as [[k v] [E A']]. cbn in E. subst v. apply (zfind_In _ _ _ SP) in A'. apply (B _ A').
  Qed.
  Lemma follow_ok b : (forall z, f z <> Some b) -> forall fuel pre cur, walk f b pre cur -> NoDup pre ->
    (length pn < length pre + fuel)%nat ->
    exists t e, follow fuel pn cur = Some (t ++ [e]) /\ walk f cur t e /\ f e = None /\ NoDup (pre ++ t ++ [e]).
  Proof.
    intros Hb. induction fuel as [|fuel IH]; intros pre cur W ND HL.
    - exfalso. assert (length pre <= length (map fst pn))%nat; [|rewrite map_length in *; lia].
      apply NoDup_incl_length; [exact ND|]. intros x Hx. pose proof (walk_dom f b pre cur x W Hx) as D.
      destruct (f x) eqn:E; [|congruence]. eapply dom_key; exact E.
    - cbn [follow].
      assert (Hn : ~ In cur pre).
      { intros H. pose proof (walk_return f b pre cur I W ND H) as ->. destruct pre as [|w pre _] using rev_ind; [destruct H|].
        apply walk_snoc_inv in W as [_ W]. apply (Hb _ W). }
      destruct (zfind cur pn) as [nx|] eqn:E.
      + destruct (IH (pre ++ [cur]) nx) as [t [e [E1 [E2 [E3 E4]]]]].
        * eapply walk_snoc; [exact W|exact E].
        * apply NoDup_snoc; assumption.
        * rewrite app_length. cbn [length]. lia.
        * rewrite E1. exists (cur :: t), e. split; [reflexivity|]. split; [econstructor; [exact E|exact E2]|]. split; [exact E3|].
          rewrite <- app_assoc in E4. exact E4.
      + exists [], cur. split; [reflexivity|]. split; [constructor|]. split; [exact E|]. apply NoDup_snoc; assumption.
  Qed.
  (** [p] is the maximal walk from [b]. *)
  Definition path_of (b : Z) (p : list Z) : Prop := exists t e, p = t ++ [e] /\ walk f b t e /\ f e = None /\ NoDup p.
  Lemma build_ok bs : (forall b, In b bs -> In b (path_begins pn)) -> NoDup bs ->
    exists ps, build_paths pn bs = Ok ps /\
      (forall p, In p ps -> exists b, In b bs /\ path_of b p /\ (2 <= length p)%nat) /\
      (forall b, In b bs -> exists p, In p ps /\ path_of b p) /\ NoDup (concat ps).
  Proof.
    induction bs as [|b bs IH]; intros Hb ND; cbn [build_paths].
    - exists []. split; [reflexivity|]. split; [intros ? []|]. split; [intros ? []|constructor].
    - inversion ND; subst. destruct IH as [ps [E1 [E2 [E3 E4]]]]; auto; [intros; apply Hb; right; assumption|].
      pose proof (Hb b (or_introl eq_refl)) as Bb. apply begins_iff in Bb as [B1 B2].
      destruct (follow_ok b B2 (S (S (length pn))) [] b) as [t [e [F1 [F2 [F3 F4]]]]]; [constructor|constructor|cbn [length]; lia|].
      rewrite F1. cbn [app] in F4.
      assert (PO : path_of b (t ++ [e])) by (exists t, e; auto).
      assert (LL : (2 <= length (t ++ [e]))%nat).
      { rewrite app_length. cbn [length]. destruct t; [inversion F2; subst; congruence|cbn [length]; lia]. }
      destruct (Nat.leb_spec (length (t ++ [e])) 1); [lia|]. rewrite E1. cbn [obind].
      exists ((t ++ [e]) :: ps). split; [reflexivity|]. split; [|split].
      + intros p [<-|Hp]; [exists b; split; [left; reflexivity|auto]|]. destruct (E2 p Hp) as [b' [A B]]. exists b'. split; [right; exact A|exact B].
      + intros b' [<-|Hb']; [exists (t ++ [e]); split; [left; reflexivity|exact PO]|]. destruct (E3 b' Hb') as [p [A B]]. exists p. split; [right; exact A|exact B].
      + cbn [concat]. clear E3. 
        assert (D : forall y, In y (t ++ [e]) -> ~ In y (concat ps)).
        { intros y Hy Hc. apply in_concat in Hc as [p [Hp Hyp]]. destruct (E2 p Hp) as [b' [Hb' [[t' [e' [-> [W' [Fe' _]]]]] _]]].
          assert (R : forall t e b y, walk f b t e -> In y (t ++ [e]) -> exists r, walk f b r y).
          { clear. intros t e b y W Hy. apply in_app_iff in Hy as [Hy|[<-|[]]]; [|eauto]. apply in_split in Hy as [t1 [t2 ->]].
            apply walk_split in W as [c [A B]]. apply walk_head in B as [<- _]. eauto. }
          destruct (R _ _ _ _ F2 Hy) as [r1 R1]. destruct (R _ _ _ _ W' Hyp) as [r2 R2].
          assert (b = b').
          { eapply walk_same_start; [exact I|exact B2| |exact R1|exact R2]. apply begins_iff. apply Hb. right. exact Hb'. }
          subst. contradiction. }
        clear - F4 E4 D. induction (t ++ [e]) as [|x l IHl]; cbn [app]; [exact E4|]. inversion F4; subst. constructor.
        * rewrite in_app_iff. intros [H|H]; [contradiction|]. apply (D x); [left; reflexivity|exact H].
        * apply IHl; auto. intros y Hy. apply D. right. exact Hy.
  Qed.
  (** Every node with a successor lies on the path of a first node. *)
  Lemma backward a : f a <> None -> exists b t, In b (path_begins pn) /\ walk f b t a.
  Proof.
    intros Ha. assert (G : forall n b t, walk f b t a -> NoDup (t ++ [a]) -> (length pn < length t + n)%nat ->
      exists b t, In b (path_begins pn) /\ walk f b t a).
    { induction n as [|n IH]; intros b t W ND HL.
      - exfalso. assert (length t <= length (map fst pn))%nat; [|rewrite map_length in *; lia].
        apply NoDup_incl_length. { clear - ND. induction t as [|x t IH]; [constructor|]. cbn [app] in ND. inversion ND; subst. constructor; [|auto]. rewrite in_app_iff in H1. tauto. }
        intros x Hx. pose proof (walk_dom f b t a x W Hx) as D. destruct (f x) eqn:E; [|congruence]. eapply dom_key; exact E.
      - assert (Db : f b <> None) by (destruct t; [inversion W; subst; exact Ha|apply walk_head in W as [-> [c [Q _]]]; congruence]).
        destruct (existsb (Z.eqb b) (map snd pn)) eqn:X.
        + apply existsb_Z in X. apply in_map_iff in X as [[p v] [Ev Hp]]. cbn in Ev. subst v.
          apply (zfind_In _ _ _ SP) in Hp. change (f p = Some b) in Hp.
          apply (IH p (p :: t)).
          * econstructor; [exact Hp|exact W].
          * cbn [app]. constructor; [|exact ND]. intros Hi. apply in_app_iff in Hi.
            assert (exists r, walk f b r p) as [r R].
            { destruct Hi as [Hi|[<-|[]]]; [|eauto]. apply in_split in Hi as [t1 [t2 ->]]. apply walk_split in W as [c [A B]].
              apply walk_head in B as [<- _]. eauto. }
            assert (C : closed f (p :: r)).
            { clear - R Hp. assert (S : forall b r, walk f b r p -> forall y, In y r -> exists z, (In z r \/ z = p) /\ f y = Some z).
              { intros b0 r0 W0. induction W0 as [x|x c l y E W0 IH]; intros z Hz; [destruct Hz|]. destruct Hz as [<-|Hz].
                - exists c. split; [|exact E]. inversion W0; subst; [right; reflexivity|left; right; left; reflexivity].
                - destruct (IH Hp R z Hz) as [u [[U|U] Eu]]; exists u; (split; [|exact Eu]); [left; right; exact U|right; exact U]. }
              intros y [<-|Hy].
              - exists b. split; [|exact Hp]. destruct r; [inversion R; left; reflexivity|]. apply walk_head in R as [-> _]. right. left. reflexivity.
              - destruct (S b r R y Hy) as [z [[Z|Z] Ez]]; exists z; (split; [|exact Ez]); [right; exact Z|left; congruence]. }
            apply AC in C. discriminate.
          * cbn [length]. lia.
        + exists b, t. split; [|exact W]. apply begins_iff. split; [exact Db|]. intros z Hz.
          apply (zfind_In _ _ _ SP) in Hz. apply (in_map snd) in Hz. cbn in Hz. apply existsb_Z in Hz. congruence. }
    apply (G (S (length pn)) a []); [constructor|repeat constructor; intros []|cbn [length]; lia].
  Qed.
End Paths.

Lemma inj_forced g : inj (fun x => zfind x (GetForcedEdges g)).
Proof.
  intros a b c A B. pose proof (forced_edges_sorted g) as SP. apply (zfind_In _ _ _ SP), forced_iff in A. apply (zfind_In _ _ _ SP), forced_iff in B.
  eapply forced_inj; eassumption.
Qed.
Lemma walk_weaken f f' a l b : (forall x, In x l -> f x = f' x) -> walk f a l b -> walk f' a l b.
Proof.
  intros H W. induction W as [a|a c l b E W IH]; [constructor|]. econstructor; [rewrite <- (H a (or_introl eq_refl)); exact E|].
  apply IH. intros; apply H; right; assumption.
Qed.

(** The paths: never an abort; each has at least two blocks, all neighbours on
    a path are joined by a forced edge, no block occurs twice; and every forced
    edge is used, unless it closes a cycle - then it leads from the end to the
    start of a path, which is the block with the smallest index (or it leads
    from a block to itself). *)
Theorem C26_paths g :
  exists ps, GetForcedPaths g = Ok ps /\
    (forall p, In p ps -> (2 <= length p)%nat /\ forall a b, adjacent p a b -> forced g a b) /\
    NoDup (concat ps) /\
    (forall a b, forced g a b ->
       (exists p, In p ps /\ adjacent p a b) \/ a = b \/
       (exists p, In p ps /\ starts p b /\ ends p a /\ forall x, In x p -> fc_bb g b <= fc_bb g x)).
Proof.
  set (pn := GetForcedEdges g). pose proof (forced_edges_sorted g) as SP. fold pn in SP. pose proof (inj_forced g) as I. fold pn in I.
  set (f := fun x => zfind x pn) in *.
  destruct (bc_loop_ok pn (fc_bb g) I pn) with (id := 0) (vis := @nil (Z * Z)) (cuts := @nil Z) as [vis [cuts [id [E1 [B [_ Hall]]]]]].
  { intros [a b] H. apply (zfind_In _ _ _ SP) in H. cbn [fst]. change (f a <> None). unfold f. congruence. }
  { constructor; [intros y j H; discriminate| |intros u []]. intros l _ [y [_ H]]. cbn in H. congruence. }
  unfold GetForcedPaths, BreakCycles. fold pn. rewrite E1.
  set (pn' := filter (fun e => negb (existsb (Z.eqb (fst e)) cuts)) pn).
  assert (SP' : zsorted pn') by (apply zsorted_filter; exact SP).
  set (f' := fun x => zfind x pn').
  assert (F' : forall x, f' x = if existsb (Z.eqb x) cuts then None else f x).
  { intros x. unfold f'. destruct (zfind x pn') as [y|] eqn:E.
    - apply (zfind_In _ _ _ SP') in E. apply filter_In in E as [A Q]. cbn [fst] in Q. apply (zfind_In _ _ _ SP) in A.
      change (f x = Some y) in A. rewrite A. destruct (existsb (Z.eqb x) cuts); [discriminate|reflexivity].
    - destruct (existsb (Z.eqb x) cuts) eqn:X; [reflexivity|]. destruct (f x) as [y|] eqn:Y; [|reflexivity]. exfalso.
      apply (zfind_In _ _ _ SP) in Y. assert (In (x, y) pn') as Q by (apply filter_In; cbn [fst]; rewrite X; auto).
      apply (zfind_In _ _ _ SP') in Q. congruence. }
  assert (Fsub : forall x y, f' x = Some y -> f x = Some y) by (intros x y; rewrite F'; destruct (existsb (Z.eqb x) cuts); [discriminate|auto]).
  assert (I' : inj f') by (intros a b c A Q; eapply I; apply Fsub; eassumption).
  assert (AC : forall l, closed f' l -> l = []).
  { intros l C. destruct l as [|y l]; [reflexivity|]. exfalso.
    assert (C' : closed f (y :: l)) by (intros z Hz; destruct (C z Hz) as [w [W1 W2]]; exists w; auto).
    destruct (b_closed _ _ _ _ _ B (y :: l) C') as [u [U1 U2]].
    - exists y. split; [left; reflexivity|]. destruct (C' y (or_introl eq_refl)) as [z [_ Z]].
      apply (zfind_In _ _ _ SP) in Z. apply Hall in Z. exact Z.
    - destruct (C u U1) as [z [_ Z]]. rewrite F' in Z. replace (existsb (Z.eqb u) cuts) with true in Z; [discriminate|]. symmetry. apply existsb_Z. exact U2. }
  assert (NB : NoDup (path_begins pn')) by (unfold path_begins; apply NoDup_filter, zsorted_fst_nodup; exact SP').
  destruct (build_ok pn' SP' I' AC (path_begins pn') (fun b H => H) NB) as [ps [P1 [P2 [P3 P4]]]].
  exists ps. split; [exact P1|]. split; [|split; [exact P4|]].
  - intros p Hp. destruct (P2 p Hp) as [b [Hb [[t [e [-> [W [Fe _]]]]] L]]]. split; [exact L|]. intros x y [l1 [l2 E]].
    assert (Q : f' x = Some y).
    { destruct l2 as [|z l2 _] using rev_ind.
      - change (l1 ++ [x; y]) with (l1 ++ [x] ++ [y]) in E. rewrite app_assoc in E. apply app_inj_tail in E as [Et Ee]. subst.
        apply walk_snoc_inv in W as [_ W]. exact W.
      - replace (l1 ++ x :: y :: l2 ++ [z]) with ((l1 ++ x :: y :: l2) ++ [z]) in E by (rewrite <- app_assoc; reflexivity).
        apply app_inj_tail in E as [Et Ee]. subst. apply walk_split in W as [c [_ W]]. apply walk_head in W as [<- [d [D1 W]]].
        apply walk_head in W as [<- _]. exact D1. }
    apply Fsub in Q. apply (zfind_In _ _ _ SP) in Q. apply forced_iff in Q. exact Q.
  - intros a b Fab. apply forced_iff in Fab. fold pn in Fab. apply (zfind_In _ _ _ SP) in Fab. change (f a = Some b) in Fab.
    destruct (existsb (Z.eqb a) cuts) eqn:X.
    + right. apply existsb_Z in X. destruct (b_cuts _ _ _ _ _ B a X) as [L [[s [L0 [C1 [C2 [C3 [C4 C5]]]]]] _]].
      subst L. apply walk_snoc_inv in C2 as [C2 Es]. assert (s = b) by (change (f a = Some s) in Es; congruence). subst s.
      destruct (Z.eq_dec a b) as [E|N]; [left; exact E|right].
      assert (Nl : ~ In a L0) by (apply NoDup_remove_2 in C3; rewrite app_nil_r in C3; exact C3).
      assert (NC : forall x, In x L0 -> f x = f' x).
      { intros x Hx. rewrite F'. destruct (existsb (Z.eqb x) cuts) eqn:Y; [|reflexivity]. exfalso. apply existsb_Z in Y.
        assert (x = a) by (apply C5; [exact Y|apply in_app_iff; left; exact Hx]). subst. contradiction. }
      pose proof (walk_weaken f f' b L0 a NC C2) as W'.
      assert (Fa : f' a = None) by (rewrite F'; apply existsb_Z in X; rewrite X; reflexivity).
      assert (Hb : In b (path_begins pn')).
      { apply begins_iff; [exact SP'|]. split.
        - destruct L0 as [|x L0]; [inversion W'; congruence|]. apply walk_head in W' as [-> [c [Q _]]]. change (f' b <> None). congruence.
        - intros z Hz. change (f' z = Some b) in Hz. assert (z = a) by (eapply I; [apply Fsub; exact Hz|exact Fab]). subst. congruence. }
      destruct (P3 b Hb) as [p [Hp [t [e [-> [W [Fe _]]]]]]].
      destruct (walk_det f' b t e L0 a W W' Fe Fa) as [-> ->].
      exists (L0 ++ [a]). split; [exact Hp|]. split; [|split; [exists L0; reflexivity|exact C4]].
      destruct L0 as [|x L0]; [inversion W'; congruence|]. apply walk_head in W' as [-> _]. exists (L0 ++ [a]). reflexivity.
    + left. assert (Fa : f' a = Some b) by (rewrite F', X; exact Fab).
      destruct (backward pn' SP' AC a) as [s [t [Hs W]]]; [change (f' a <> None); congruence|].
      destruct (P3 s Hs) as [p [Hp [t2 [e [-> [W2 [Fe _]]]]]]]. exists (t2 ++ [e]). split; [exact Hp|].
      destruct (walk_prefix f' s t a t2 e W W2 Fe) as [r [-> R]]. destruct r as [|x r]; [inversion R; subst; change (f' e = None) in Fe; congruence|].
      apply walk_head in R as [-> [c [Ec R]]]. assert (c = b) by congruence. subst c.
      exists t. destruct r as [|y r].
      * inversion R; subst. exists []. rewrite <- app_assoc. reflexivity.
      * apply walk_head in R as [-> _]. exists (r ++ [e]). rewrite <- app_assoc. reflexivity.
Qed.
Print Assumptions C26_paths.

(** A block with no taken branch or fall-through into it (such as the entry
    block of a function that does not loop back to it) is never behind another
    block. *)
Theorem C26_entry_first_partial g ps : GetForcedPaths g = Ok ps -> forall e p a,
  (forall ed, In ed (fc_edges g) -> hot ed -> ce_sink ed <> e) -> In p ps -> ~ adjacent p a e.
Proof.
  intros E e p a H Hp Ha. destruct (C26_paths g) as [ps' [E' [A _]]]. assert (ps' = ps) by congruence. subst.
  apply A in Ha; [|exact Hp]. destruct Ha as [l1 [ed [l2 [Q [Ho [_ [Hs _]]]]]]]. apply (H ed); auto.
  rewrite Q. apply in_app_iff. right. left. reflexivity.
Qed.
Print Assumptions C26_entry_first_partial.

(** The entry block 0 branches to 1 and to 2, both go to 3, and 3 branches back
    to the entry: the forced path 3, 0 puts the entry block behind block 3. *)
Definition loop_to_entry : fcfg :=
  Fcfg [CEdge 0 1 10 EBranch; CEdge 0 2 20 EBranch; CEdge 1 3 10 EBranch; CEdge 2 3 20 EBranch; CEdge 3 0 29 EBranch] (fun x => x).
Theorem C26_entry_first_refuted :
  exists g ps p, GetForcedPaths g = Ok ps /\ In p ps /\ adjacent p 3 0 /\
    (forall e, In e (fc_edges g) -> fc_bb g 0 <= fc_bb g (ce_src e) /\ fc_bb g 0 <= fc_bb g (ce_sink e)).
Proof.
  exists loop_to_entry, [[3; 0]], [3; 0]. split; [vm_compute; reflexivity|]. split; [left; reflexivity|].
  split; [exists [], []; reflexivity|]. intros e He. cbn in He. repeat (destruct He as [<-|He]; [cbn; lia|]). destruct He.
Qed.
Print Assumptions C26_entry_first_refuted.

(** A cycle 5 -> 7 -> 6 -> 5, a path 1 -> 2 -> 3 beside a branch at 3, a call. *)
Example C26_nonvacuous :
  let g := Fcfg [CEdge 5 7 3 EBranch; CEdge 7 6 3 EBranch; CEdge 6 5 2 EBranch; CEdge 1 2 9 EBranch; CEdge 2 3 9 EBranch;
                 CEdge 3 4 4 EBranch; CEdge 3 8 5 EBranch; CEdge 1 1 7 ECall; CEdge 2 8 0 EBranch] (fun x => x) in
  GetForcedPaths g = Ok [[1; 2; 3]; [5; 7; 6]] /\ forced g 6 5.
Proof.
  intros g. split; [vm_compute; reflexivity|]. apply forced_iff. vm_compute. auto.
Qed.
