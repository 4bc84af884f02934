From Verif Require Import Base ZMap ForcedModel ForcedSpec.

(** ** GetForcedEdges *)
Lemma skipped_hot e : skipped e = false <-> hot e.
Proof.
  unfold skipped, hot. destruct (Z.eqb_spec (ce_weight e) 0), (ce_kind e); cbn; split; try discriminate; try (intros [? ?]; congruence); auto.
Qed.
Definition hots (es : list cedge) : list cedge := filter (fun e => negb (skipped e)) es.
Definition outs (es : list cedge) (a : Z) : list cedge := filter (fun e => ce_src e =? a) (hots es).
Definition ins (es : list cedge) (b : Z) : list cedge := filter (fun e => ce_sink e =? b) (hots es).
Definition out_val (l : list cedge) : option (option Z) :=
  match l with [] => None | [e] => Some (Some (ce_sink e)) | _ => Some None end.

Lemma collect_ok es : forall done fe deg, zsorted fe -> zsorted deg ->
  (forall a, zfind a fe = out_val (outs done a)) -> (forall b, degree deg b = zlen (ins done b)) ->
  let '(fe', deg') := collect_edges es fe deg in
  zsorted fe' /\ (forall a, zfind a fe' = out_val (outs (done ++ es) a)) /\ (forall b, degree deg' b = zlen (ins (done ++ es) b)).
Proof.
  induction es as [|e es IH]; intros done fe deg Sf Sd Hf Hd; cbn [collect_edges].
  - rewrite app_nil_r. auto.
  - replace (done ++ e :: es) with ((done ++ [e]) ++ es) by (rewrite <- app_assoc; reflexivity).
    destruct (skipped e) eqn:K.
    + apply IH; auto; intros x; unfold outs, ins, hots; rewrite filter_app; cbn [filter]; rewrite K; cbn [negb filter];
        rewrite app_nil_r; [apply Hf|apply Hd].
    + apply IH.
      * destruct (zfind (ce_src e) fe); apply zset_sorted; exact Sf.
      * apply zset_sorted; exact Sd.
      * intros a. unfold outs, hots. rewrite filter_app. cbn [filter]. rewrite K. cbn [negb]. rewrite filter_app. cbn [filter].
        fold (hots done). fold (outs done a). specialize (Hf a) as Ha. pose proof (Hf (ce_src e)) as He.
        destruct (Z.eqb_spec (ce_src e) a) as [<-|N].
        -- destruct (zfind (ce_src e) fe) eqn:F; rewrite zfind_zset by exact Sf; rewrite Z.eqb_refl;
             destruct (outs done (ce_src e)) as [|x [|y l]]; cbn in *; try reflexivity; discriminate.
        -- rewrite app_nil_r. destruct (zfind (ce_src e) fe); rewrite zfind_zset by exact Sf;
             (destruct (Z.eqb_spec a (ce_src e)); [congruence|exact Ha]).
      * intros b. unfold ins, hots. rewrite filter_app. cbn [filter]. rewrite K. cbn [negb]. rewrite filter_app. cbn [filter].
        fold (hots done). fold (ins done b). unfold degree at 1. rewrite zfind_zset by exact Sd. rewrite (Z.eqb_sym b).
        destruct (Z.eqb_spec (ce_sink e) b) as [<-|N]; rewrite zlen_app.
        -- rewrite Hd. reflexivity.
        -- change (degree deg b = zlen (ins done b) + 0). rewrite Hd. lia.
Qed.
Lemma keep_forced_ok deg fe : zsorted fe -> zsorted (keep_forced deg fe) /\
  forall a b, In (a, b) (keep_forced deg fe) <-> In (a, Some b) fe /\ degree deg b <= 1.
Proof.
  induction 1 as [|k v m L SS [IH1 IH2]]; cbn [keep_forced].
  - split; [constructor|]. cbn. tauto.
  - destruct v as [b0|].
    + destruct (Z.gtb_spec (degree deg b0) 1) as [Q|Q].
      * split; [exact IH1|]. intros a b. rewrite IH2. cbn [In]. split; [tauto|]. intros [[E|H] D]; [|auto]. injection E as -> ->. lia.
      * split.
        -- constructor; [|exact IH1]. intros k' v' H. apply IH2 in H as [H _]. eapply L; exact H.
        -- intros a b. cbn [In]. rewrite IH2. split.
           ++ intros [E|[A B]]; [injection E as -> ->; split; [left; reflexivity|lia]|split; [right; exact A|exact B]].
           ++ intros [[E|A] B]; [injection E as -> ->; left; reflexivity|right; split; assumption].
    + split; [exact IH1|]. intros a b. rewrite IH2. cbn [In]. split; [tauto|]. intros [[E|H] D]; [discriminate|auto].
Qed.

Lemma filter_one {A} (p : A -> bool) l e : filter p l = [e] ->
  exists l1 l2, l = l1 ++ e :: l2 /\ p e = true /\ forall x, In x (l1 ++ l2) -> p x = false.
Proof.
  induction l as [|y l IH]; cbn [filter]; [discriminate|]. destruct (p y) eqn:P.
  - intros [= -> E]. exists [], l. split; [reflexivity|]. split; [exact P|]. cbn [app]. intros x Hx.
    destruct (p x) eqn:Q; [|reflexivity]. assert (In x (filter p l)) by (apply filter_In; auto). rewrite E in H. destruct H.
  - intros E. destruct (IH E) as [l1 [l2 [-> [P2 H]]]]. exists (y :: l1), l2. split; [reflexivity|]. split; [exact P2|].
    cbn [app]. intros x [<-|Hx]; auto.
Qed.
Lemma filter_none {A} (p : A -> bool) l : (forall x, In x l -> p x = false) -> filter p l = [].
Proof. induction l as [|y l IH]; intros H; cbn [filter]; [reflexivity|]. rewrite (H y (or_introl eq_refl)). apply IH. intros; apply H; right; assumption. Qed.

Lemma filter_filter {A} (p q : A -> bool) l : filter p (filter q l) = filter (fun x => q x && p x) l.
Proof. induction l as [|y l IH]; cbn [filter]; [reflexivity|]. destruct (q y); cbn [filter andb]; rewrite IH; reflexivity. Qed.

Lemma forced_iff g a b : In (a, b) (GetForcedEdges g) <-> forced g a b.
Proof.
  unfold GetForcedEdges. pose proof (collect_ok (fc_edges g) [] [] [] (zs_nil) (zs_nil)) as C.
  specialize (C (fun _ => eq_refl) (fun _ => eq_refl)). destruct (collect_edges (fc_edges g) [] []) as [fe deg]. cbn [app] in C.
  destruct C as [Sf [Cf Cd]]. destruct (keep_forced_ok deg fe Sf) as [_ K]. rewrite K, <- (zfind_In _ _ _ Sf), Cf, Cd. clear K.
  assert (P : forall e, negb (skipped e) = true <-> hot e) by (intros e; rewrite <- skipped_hot; destruct (skipped e); cbn; intuition discriminate).
  split.
  - intros [O D]. destruct (outs (fc_edges g) a) as [|e [|e2 l]] eqn:Eo; cbn in O; try discriminate. injection O as O.
    unfold outs, hots in Eo. rewrite filter_filter in Eo. apply filter_one in Eo as [l1 [l2 [E1 [E2 E3]]]].
    apply andb_true_iff in E2 as [H1 H2]. apply P in H1. apply Z.eqb_eq in H2.
    exists l1, e, l2. split; [exact E1|]. split; [exact H1|]. split; [exact H2|]. split; [exact O|].
    intros e' Hi He'. split.
    + specialize (E3 e' Hi). apply P in He'. rewrite He' in E3. cbn in E3. apply Z.eqb_neq. exact E3.
    + intros Q. unfold ins, hots in D. rewrite filter_filter, E1, filter_app in D. cbn [filter] in D.
      apply P in H1, He'. rewrite H1, (proj2 (Z.eqb_eq (ce_sink e) b) O) in D. cbn [andb] in D. rewrite zlen_app, zlen_cons in D.
      assert (In e' (filter (fun x => negb (skipped x) && (ce_sink x =? b)) l1) \/ In e' (filter (fun x => negb (skipped x) && (ce_sink x =? b)) l2)) as M.
      { apply in_app_iff in Hi as [Hi|Hi]; [left|right]; apply filter_In; (split; [exact Hi|]); rewrite He', (proj2 (Z.eqb_eq _ b) Q); reflexivity. }
      destruct (filter (fun x => negb (skipped x) && (ce_sink x =? b)) l1), (filter (fun x => negb (skipped x) && (ce_sink x =? b)) l2);
        cbn [In] in M; rewrite ?zlen_cons, ?zlen_nil in D;
        repeat match goal with |- context [@zlen ?A ?l] => pose proof (@zlen_nonneg A l); fail end;
        try tauto; match type of D with context [zlen ?l] => pose proof (zlen_nonneg l) end; try lia;
        repeat match type of D with context [zlen ?l] => pose proof (zlen_nonneg l); generalize dependent (zlen l); intros end; lia.
  - intros [l1 [e [l2 [E1 [H1 [H2 [H3 H4]]]]]]]. apply P in H1.
    assert (N : forall (key : cedge -> Z) x, (forall e', In e' (l1 ++ l2) -> hot e' -> key e' <> x) -> key e = x ->
              filter (fun y => key y =? x) (hots (fc_edges g)) = [e]).
    { intros key x Hk He. unfold hots. rewrite filter_filter, E1, filter_app. cbn [filter]. rewrite H1, He, Z.eqb_refl. cbn [andb].
      rewrite !filter_none; [reflexivity| |].
      - intros y Hy. destruct (negb (skipped y)) eqn:Q; [|reflexivity]. apply P in Q. cbn. apply Z.eqb_neq. apply Hk; [|exact Q].
        apply in_app_iff; right; exact Hy.
      - intros y Hy. destruct (negb (skipped y)) eqn:Q; [|reflexivity]. apply P in Q. cbn. apply Z.eqb_neq. apply Hk; [|exact Q].
        apply in_app_iff; left; exact Hy. }
    unfold outs, ins. rewrite (N ce_src a), (N ce_sink b); auto.
    + cbn. split; [congruence|lia].
    + intros; apply H4; assumption.
    + intros; apply H4; assumption.
Qed.
Lemma forced_edges_sorted g : zsorted (GetForcedEdges g).
Proof.
  unfold GetForcedEdges. pose proof (collect_ok (fc_edges g) [] [] [] (zs_nil) (zs_nil)) as C.
  specialize (C (fun _ => eq_refl) (fun _ => eq_refl)). destruct (collect_edges (fc_edges g) [] []) as [fe deg].
  apply keep_forced_ok. apply C.
Qed.
Lemma forced_inj g a a' b : forced g a b -> forced g a' b -> a = a'.
Proof.
  intros [l1 [e [l2 [E [H1 [H2 [H3 H4]]]]]]] [k1 [d [k2 [F [G1 [G2 [G3 G4]]]]]]].
  assert (In d (l1 ++ e :: l2)) as Hd by (rewrite <- E, F; apply in_app_iff; right; left; reflexivity).
  apply in_app_iff in Hd as [Hd|[<-|Hd]]; [|congruence|].
  - exfalso. destruct (H4 d); [apply in_app_iff; left; exact Hd|exact G1|]. congruence.
  - exfalso. destruct (H4 d); [apply in_app_iff; right; exact Hd|exact G1|]. congruence.
Qed.

(** ** Walks along a partial injective function *)
Inductive walk (f : Z -> option Z) : Z -> list Z -> Z -> Prop :=
| walk_nil a : walk f a [] a
| walk_cons a c l b : f a = Some c -> walk f c l b -> walk f a (a :: l) b.
Definition inj (f : Z -> option Z) : Prop := forall a b c, f a = Some c -> f b = Some c -> a = b.

Lemma walk_app f a l b k c : walk f a l b -> walk f b k c -> walk f a (l ++ k) c.
Proof. induction 1; intros H2; cbn [app]; [exact H2|]. econstructor; eauto. Qed.
Lemma walk_snoc f a l b c : walk f a l b -> f b = Some c -> walk f a (l ++ [b]) c.
Proof. intros H E. eapply walk_app; [exact H|]. econstructor; [exact E|constructor]. Qed.
Lemma walk_split f l k : forall a c, walk f a (l ++ k) c -> exists b, walk f a l b /\ walk f b k c.
Proof.
  induction l as [|x l IH]; intros a c H; cbn [app] in H.
  - exists a. split; [constructor|exact H].
  - inversion H; subst. destruct (IH _ _ H5) as [b [A B]]. exists b. split; [econstructor; eassumption|exact B].
Qed.
Lemma walk_head f a x l b : walk f a (x :: l) b -> x = a /\ exists c, f a = Some c /\ walk f c l b.
Proof. intros H. inversion H; subst. eauto. Qed.
Lemma walk_snoc_inv f a l w b : walk f a (l ++ [w]) b -> walk f a l w /\ f w = Some b.
Proof.
  intros H. apply walk_split in H as [c [A B]]. apply walk_head in B as [-> [d [D1 D2]]]. inversion D2; subst. auto.
Qed.
Lemma walk_dom f a l b x : walk f a l b -> In x l -> f x <> None.
Proof. induction 1; intros [].  - subst. congruence. - auto. Qed.
Lemma walk_return f a l b : inj f -> walk f a l b -> NoDup l -> In b l -> b = a.
Proof.
  intros I W ND Hb. apply in_split in Hb as [l1 [l2 ->]].
  apply walk_split in W as [c [W1 W2]]. apply walk_head in W2 as [<- W2'].
  destruct l1 as [|w l1 _] using rev_ind; [inversion W1; congruence|]. exfalso.
  apply walk_snoc_inv in W1 as [_ Ew].
  assert (exists z, In z (b :: l2) /\ f z = Some b) as [z [Hz Ez]].
  { destruct W2' as [d [D1 D2]]. destruct l2 as [|z l2 _] using rev_ind.
    - inversion D2; subst. exists b. split; [left; reflexivity|exact D1].
    - apply walk_snoc_inv in D2 as [_ D2]. exists z. split; [right; apply in_app_iff; right; left; reflexivity|exact D2]. }
  pose proof (I _ _ _ Ew Ez) as Q. subst z. rewrite <- app_assoc in ND. apply NoDup_remove_2 in ND. apply ND, in_app_iff. right. exact Hz.
Qed.
Lemma walk_det f a l b k c : walk f a l b -> walk f a k c -> f b = None -> f c = None -> l = k /\ b = c.
Proof.
  intros W. revert k. induction W as [a|a d l b E W IH]; intros k W2 Hb Hc; inversion W2; subst; auto; try congruence.
  assert (c0 = d) by congruence. subst. destruct (IH l0 H0 Hb Hc). subst. auto.
Qed.
Lemma walk_prefix f a l b k c : walk f a l b -> walk f a k c -> f c = None -> exists r, k = l ++ r /\ walk f b r c.
Proof.
  intros W. revert k. induction W as [a|a d l b E W IH]; intros k W2 Hc; [exists k; auto|].
  inversion W2; subst; [congruence|]. assert (c0 = d) by congruence. subst. destruct (IH l0 H0 Hc) as [r [-> R]]. exists r. auto.
Qed.
Lemma walk_same_start f a l b k y : inj f -> (forall z, f z <> Some a) -> (forall z, f z <> Some b) ->
  walk f a l y -> walk f b k y -> a = b.
Proof.
  intros I Na Nb. revert k y. induction l as [|w l IH] using rev_ind; intros k y W1 W2.
  - inversion W1; subst. destruct k as [|v k _] using rev_ind; [inversion W2; auto|]. apply walk_snoc_inv in W2 as [_ Q]. destruct (Na _ Q).
  - apply walk_snoc_inv in W1 as [W1 E1]. destruct k as [|v k _] using rev_ind; [inversion W2; subst; destruct (Nb _ E1)|].
    apply walk_snoc_inv in W2 as [W2 E2]. pose proof (I _ _ _ E1 E2) as ->. eauto.
Qed.
(** A finite set without exit. *)
Definition closed (f : Z -> option Z) (l : list Z) : Prop := forall y, In y l -> exists z, In z l /\ f y = Some z.
Lemma closed_walk f l a t b : closed f l -> walk f a t b -> In a l -> In b l /\ forall x, In x t -> In x l.
Proof.
  intros C. induction 1 as [a|a c t b E W IH]; intros Ha; [split; [exact Ha|intros ? []]|].
  destruct (C a Ha) as [z [Hz Ez]]. assert (c = z) by congruence. subst. destruct (IH Hz) as [A B]. split; [exact A|].
  intros x [<-|Hx]; auto.
Qed.

(** ** BreakCycles *)
Section Break.
  Context (pn : list (Z * Z)) (bb : Z -> Z).
  Let f x := zfind x pn.
  Hypothesis I : inj f.
  Let nextbb v := bb (match zfind v pn with Some s => s | None => v end).

  Definition unvis (vis : list (Z * Z)) : nat := length (filter (fun e => match zfind (fst e) vis with Some _ => false | None => true end) pn).
  Lemma unvis_lt vis cur id nx : zfind cur vis = None -> zfind cur pn = Some nx -> (unvis ((cur, id) :: vis) < unvis vis)%nat.
  Proof.
    intros Hv Hp. unfold unvis.
    assert (exists e, In e pn /\ fst e = cur) as [e [He <-]].
    { clear - Hp. induction pn as [|[k v] m IH]; cbn [zfind] in Hp; [discriminate|]. destruct (Z.eqb_spec cur k) as [->|].
      - exists (k, v). split; [left; reflexivity|reflexivity].
      - destruct (IH Hp) as [e [A B]]. exists e. split; [right; exact A|exact B]. }
    clear - He Hv. induction pn as [|x m IH]; [destruct He|]. cbn [filter].
    assert (W : forall m', (length (filter (fun e0 : Z * Z => match zfind (fst e0) ((fst e, id) :: vis) with Some _ => false | None => true end) m') <=
                length (filter (fun e0 : Z * Z => match zfind (fst e0) vis with Some _ => false | None => true end) m'))%nat).
    { clear. induction m' as [|y m' IH]; cbn [filter]; [lia|].
      assert (Q : zfind (fst y) ((fst e, id) :: vis) = if fst y =? fst e then Some id else zfind (fst y) vis) by reflexivity.
      rewrite Q. destruct (fst y =? fst e); destruct (zfind (fst y) vis); cbn [length]; lia. }
    destruct He as [<-|He].
    - assert (Q : zfind (fst x) ((fst x, id) :: vis) = Some id) by (cbn [zfind]; rewrite Z.eqb_refl; reflexivity).
      rewrite Q, Hv. cbn [length]. specialize (W m). lia.
    - specialize (IH He).
      assert (Q : zfind (fst x) ((fst e, id) :: vis) = if fst x =? fst e then Some id else zfind (fst x) vis) by reflexivity.
      rewrite Q. destruct (fst x =? fst e); destruct (zfind (fst x) vis); cbn [length]; lia.
  Qed.

  Definition best (tr : list Z) (v : Z) : Prop := In v tr /\ forall y, In y tr -> nextbb v <= nextbb y.
  (** One traversal, from [x0], having gone through [tr]. *)
  Lemma bc_visit_ok x0 id vis0 : (forall y j, zfind y vis0 = Some j -> j <> id) -> forall fuel tr cur victim vis,
    walk f x0 tr cur -> NoDup tr ->
    (forall y, zfind y vis = if existsb (Z.eqb y) tr then Some id else zfind y vis0) ->
    (tr = [] /\ victim = None \/ exists v, victim = Some v /\ best tr v) ->
    (forall y, In y tr -> zfind y vis0 = None) ->
    (unvis vis < fuel)%nat ->
    exists vis' cut tr' cur', bc_visit fuel pn bb id cur victim vis = Some (vis', cut) /\
      walk f x0 tr' cur' /\ NoDup tr' /\ (forall y, In y tr' -> zfind y vis0 = None) /\
      (forall y, zfind y vis' = if existsb (Z.eqb y) tr' then Some id else zfind y vis0) /\
      (f cur' = None /\ cut = None \/
       In cur' tr' /\ (exists v, cut = Some v /\ best tr' v) \/
       zfind cur' vis0 <> None /\ cut = None).
  Proof.
    intros Hid. induction fuel as [|fuel IH]; intros tr cur victim vis W ND Hv Hvic Hnew Hf; [lia|]. cbn [bc_visit].
    destruct (zfind cur pn) as [nx|] eqn:Ec.
    2: { exists vis, None, tr, cur. split; [reflexivity|]. split; [exact W|]. split; [exact ND|]. split; [exact Hnew|]. split; [exact Hv|]. left. auto. }
    destruct (zfind cur vis) as [id'|] eqn:Ev.
    - exists vis, (if id' =? id then victim else None), tr, cur. split; [reflexivity|]. split; [exact W|]. split; [exact ND|].
      split; [exact Hnew|]. split; [exact Hv|].
      rewrite Hv in Ev. destruct (existsb (Z.eqb cur) tr) eqn:X.
      + injection Ev as <-. rewrite Z.eqb_refl. right. left. apply existsb_exists in X as [z [Hz Ez]]. apply Z.eqb_eq in Ez. subst z.
        split; [exact Hz|]. destruct Hvic as [[-> _]|H]; [destruct Hz|exact H].
      + destruct (Z.eqb_spec id' id) as [->|]; [destruct (Hid _ _ Ev eq_refl)|]. right. right. split; [congruence|reflexivity].
    - assert (Hn : ~ In cur tr).
      { intros H. rewrite Hv in Ev. replace (existsb (Z.eqb cur) tr) with true in Ev; [discriminate|]. symmetry. apply existsb_exists.
        exists cur. split; [exact H|apply Z.eqb_refl]. }
      apply (IH (tr ++ [cur])).
      + eapply walk_snoc; eassumption.
      + apply NoDup_snoc; assumption.
      + intros y. cbn [zfind]. rewrite existsb_app. cbn [existsb]. rewrite orb_false_r, Hv. destruct (y =? cur); [rewrite orb_true_r|rewrite orb_false_r]; reflexivity.
      + right. destruct Hvic as [[-> ->]|[v [-> [B1 B2]]]].
        * exists cur. split; [reflexivity|]. split; [left; reflexivity|]. intros y [<-|[]]. lia.
        * fold (nextbb v). destruct (Z.ltb_spec (bb nx) (nextbb v)).
          -- assert (Q : nextbb cur = bb nx) by (unfold nextbb; rewrite Ec; reflexivity).
             exists cur. split; [reflexivity|]. split; [apply in_app_iff; right; left; reflexivity|].
             intros y Hy. apply in_app_iff in Hy as [Hy|[<-|[]]]; [specialize (B2 y Hy); lia|lia].
          -- assert (Q : nextbb cur = bb nx) by (unfold nextbb; rewrite Ec; reflexivity).
             exists v. split; [reflexivity|]. split; [apply in_app_iff; left; exact B1|].
             intros y Hy. apply in_app_iff in Hy as [Hy|[<-|[]]]; [auto|lia].
      + intros y Hy. apply in_app_iff in Hy as [Hy|[<-|[]]]; [auto|]. rewrite Hv in Ev. destruct (existsb (Z.eqb cur) tr); [discriminate|exact Ev].
      + pose proof (unvis_lt vis cur id nx Ev Ec). lia.
  Qed.

  (** The cycle cut at [u]: it starts at its smallest block and ends at [u]. *)
  Definition cut_cycle (cuts : list Z) (u : Z) (L : list Z) : Prop :=
    exists s L0, L = L0 ++ [u] /\ walk f s L s /\ NoDup L /\ (forall y, In y L -> bb s <= bb y) /\
      forall u', In u' cuts -> In u' L -> u' = u.
  Record BI (id : Z) (vis : list (Z * Z)) (cuts : list Z) : Prop := {
    b_id : forall y j, zfind y vis = Some j -> j <= id;
    b_closed : forall l, closed f l -> (exists y, In y l /\ zfind y vis <> None) -> exists u, In u l /\ In u cuts;
    b_cuts : forall u, In u cuts -> exists L, cut_cycle cuts u L /\ forall y, In y L -> zfind y vis <> None
  }.
  Lemma unvis_le vis : (unvis vis <= length pn)%nat.
  Proof. unfold unvis. clear. induction pn as [|x m IH]; cbn [filter length]; [lia|]. destruct (zfind (fst x) vis); cbn [length]; lia. Qed.

  Lemma bc_loop_ok todo : (forall e, In e todo -> f (fst e) <> None) -> forall id vis cuts, BI id vis cuts ->
    exists vis' cuts' id', bc_loop pn bb todo id vis cuts = Some cuts' /\ BI id' vis' cuts' /\
      (forall y, zfind y vis <> None -> zfind y vis' <> None) /\
      forall e, In e todo -> zfind (fst e) vis' <> None.
  Proof.
    induction todo as [|[a b] todo IH]; intros Hd id vis cuts B; cbn [bc_loop].
    - exists vis, cuts, id. split; [reflexivity|]. split; [exact B|]. split; [auto|intros ? []].
    - specialize (IH (fun e He => Hd e (or_intror He))).
      destruct (zfind a vis) as [j|] eqn:Ea.
      + destruct (IH id vis cuts B) as [vis' [cuts' [id' [E1 [E2 [E3 E4]]]]]]. exists vis', cuts', id'. split; [exact E1|].
        split; [exact E2|]. split; [exact E3|]. intros e [<-|He]; [cbn [fst]; apply E3; congruence|auto].
      + destruct (bc_visit_ok a (id + 1) vis) with (fuel := S (S (length pn))) (tr := @nil Z) (cur := a) (victim := @None Z) (vis := vis)
          as [vis1 [cut [tr [cur [E1 [W [ND [New [V Fin]]]]]]]]].
        { intros y j Hj. apply (b_id _ _ _ B) in Hj. lia. }
        { constructor. } { constructor. } { intros y. reflexivity. } { left; auto. } { intros y []. }
        { pose proof (unvis_le vis). lia. }
        rewrite E1.
        assert (Ha : f a <> None) by (apply (Hd (a, b)); left; reflexivity).
        assert (Htr : In a tr).
        { destruct tr as [|x tr]; [|apply walk_head in W as [-> _]; left; reflexivity]. exfalso. inversion W; subst.
          destruct Fin as [[F _]|[[[] _]|[F _]]]; congruence. }
        assert (V1 : forall y, In y tr -> zfind y vis1 = Some (id + 1)).
        { intros y Hy. rewrite V. replace (existsb (Z.eqb y) tr) with true; [reflexivity|]. symmetry. apply existsb_exists. exists y. split; [exact Hy|apply Z.eqb_refl]. }
        assert (V2 : forall y, zfind y vis1 <> None -> In y tr \/ zfind y vis <> None).
        { intros y Hy. rewrite V in Hy. destruct (existsb (Z.eqb y) tr) eqn:X; [left|right; exact Hy].
          apply existsb_exists in X as [z [Hz Ez]]. apply Z.eqb_eq in Ez. subst. exact Hz. }
        assert (V3 : forall y, zfind y vis <> None -> zfind y vis1 <> None).
        { intros y Hy. rewrite V. destruct (existsb (Z.eqb y) tr); congruence. }
        set (cuts1 := match cut with Some v => cuts ++ [v] | None => cuts end).
        assert (Hsub : forall u, In u cuts -> In u cuts1) by (intros u Hu; unfold cuts1; destruct cut; [apply in_app_iff; left|]; exact Hu).
        assert (B1 : BI (id + 1) vis1 cuts1).
        { constructor.
          - intros y j. rewrite V. destruct (existsb (Z.eqb y) tr); [intros [= <-]; lia|]. intros H. apply (b_id _ _ _ B) in H. lia.
          - intros l Cl [y [Hy Hvy]]. apply V2 in Hvy as [Hvy|Hvy].
            2: { destruct (b_closed _ _ _ B l Cl) as [u [U1 U2]]; [eauto|]. eauto. }
            apply in_split in Hvy as [t1 [t2 Et]]. subst tr. pose proof W as W'. apply walk_split in W' as [c [W1 W2]].
            pose proof (walk_head _ _ _ _ _ W2) as [Q _]. subst c.
            destruct (closed_walk f l y _ cur Cl W2 Hy) as [Hc Ht2].
            destruct Fin as [[F _]|[[F [v [Cv [Bv _]]]]|[F _]]].
            + destruct (Cl cur Hc) as [z [_ Z]]. congruence.
            + pose proof (walk_return f a _ cur I W ND F) as ->.
              destruct (closed_walk f l a _ y Cl W1 Hc) as [_ Ht1].
              exists v. split; [|unfold cuts1; rewrite Cv; apply in_app_iff; right; left; reflexivity].
              apply in_app_iff in Bv as [Bv|Bv]; auto.
            + destruct (b_closed _ _ _ B l Cl) as [u [U1 U2]]; [eauto|]. eauto.
          - assert (Old : forall u, In u cuts -> exists L, cut_cycle cuts1 u L /\ forall y, In y L -> zfind y vis1 <> None).
            { intros u Hu. destruct (b_cuts _ _ _ B u Hu) as [L [[s [L0 [C1 [C2 [C3 [C4 C5]]]]]] HL]].
              exists L. split; [|auto]. exists s, L0. split; [exact C1|]. split; [exact C2|]. split; [exact C3|]. split; [exact C4|].
              intros u' Hu' HuL. unfold cuts1 in Hu'. destruct cut as [v|]; [|auto]. apply in_app_iff in Hu' as [Hu'|[<-|[]]]; [auto|].
              exfalso. destruct Fin as [[_ F]|[[_ [v' [F [Bv _]]]]|[_ F]]]; try discriminate. injection F as <-.
              apply (HL v HuL). apply New. exact Bv. }
            intros u Hu. unfold cuts1 in Hu. destruct cut as [v|]; [|auto]. apply in_app_iff in Hu as [Hu|[<-|[]]]; [auto|].
            destruct Fin as [[_ F]|[[F [v' [Cv [Bv Bm]]]]|[_ F]]]; try discriminate. injection Cv as <-.
            pose proof (walk_return f a _ cur I W ND F) as ->.
            apply in_split in Bv as [t1 [t2 Et]]. subst tr. pose proof W as W'. apply walk_split in W' as [c [W1 W2]].
            pose proof (walk_head _ _ _ _ _ W2) as [Q [s [Es W3]]]. subst c.
            exists (t2 ++ t1 ++ [v]). split.
            2: { intros y Hy. rewrite (V1 y); [discriminate|]. rewrite !in_app_iff in *. cbn [In] in *. tauto. }
            assert (WL : walk f s (t2 ++ t1 ++ [v]) s).
            { eapply walk_app; [exact W3|]. eapply walk_snoc; [exact W1|exact Es]. }
            exists s, (t2 ++ t1). split; [rewrite app_assoc; reflexivity|]. split; [exact WL|]. split.
            { apply NoDup_rev in ND. clear - ND. rewrite rev_app_distr in ND. cbn [rev] in ND.
              rewrite <- (rev_involutive (t2 ++ t1 ++ [v])). apply NoDup_rev. rewrite app_assoc, rev_app_distr, rev_app_distr. cbn [rev app].
              rewrite <- app_assoc in ND. cbn [app] in ND.
              apply NoDup_remove in ND as [N1 N2]. constructor.
              - rewrite in_app_iff in *. tauto.
              - clear N2. revert N1. generalize (rev t1) (rev t2). clear. intros x y N.
                induction y as [|z y IH]; cbn [app] in N; [rewrite app_nil_r; exact N|]. inversion N; subst.
                assert (ND2 : NoDup (x ++ y)) by auto.
                clear - H1 ND2. induction x as [|w x IH]; cbn [app] in *.
                + constructor; [rewrite app_nil_r in H1; exact H1|exact ND2].
                + inversion ND2; subst. constructor.
                  * rewrite in_app_iff in *. cbn [In] in *. intros [K|[K|K]]; [tauto| |tauto]. subst. apply H1. right. left. reflexivity.
                  * apply IH; [|assumption]. rewrite in_app_iff in *. cbn [In] in *. tauto. }
            assert (Ns : nextbb v = bb s) by (unfold nextbb; unfold f in Es; rewrite Es; reflexivity).
            split.
            { (* every node of the cycle is the successor of one *)
              intros y Hy. assert (exists p, In p (t1 ++ v :: t2) /\ f p = Some y) as [p [Hp Ep]].
              { apply in_split in Hy as [k1 [k2 Ek]]. rewrite Ek in WL. apply walk_split in WL as [c [X1 X2]].
                pose proof (walk_head _ _ _ _ _ X2) as [Q _]. subst c.
                destruct k1 as [|p k1 _] using rev_ind.
                - inversion X1; subst. exists v. split; [apply in_app_iff; right; left; reflexivity|exact Es].
                - apply walk_snoc_inv in X1 as [_ X1]. exists p. split; [|exact X1].
                  assert (In p (t2 ++ t1 ++ [v])) as Hp by (rewrite Ek, <- app_assoc; apply in_app_iff; right; left; reflexivity).
                  rewrite !in_app_iff in *. cbn [In] in *. tauto. }
              specialize (Bm p Hp). unfold nextbb in Bm at 2. unfold f in Ep. rewrite Ep in Bm. lia. }
            intros u' Hu' HuL. unfold cuts1 in Hu'. apply in_app_iff in Hu' as [Hu'|[<-|[]]]; [|reflexivity]. exfalso.
            destruct (b_cuts _ _ _ B u' Hu') as [L' [[s' [L0' [C1 _]]] HL']].
            apply (HL' u'); [rewrite C1; apply in_app_iff; right; left; reflexivity|]. apply New.
            rewrite !in_app_iff in *. cbn [In] in *. tauto. }
        destruct (IH (id + 1) vis1 cuts1 B1) as [vis' [cuts' [id' [F1 [F2 [F3 F4]]]]]].
        exists vis', cuts', id'. split; [exact F1|]. split; [exact F2|]. split; [auto|].
        intros e [<-|He]; [cbn [fst]; apply F3; rewrite (V1 a Htr); discriminate|auto].
  Qed.
End Break.
