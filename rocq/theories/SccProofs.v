From Verif Require Import Base SccModel SccSpec.
From Coq Require Import Relations.Relation_Operators Relations.Operators_Properties Permutation.

Lemma mem_In x l : mem x l = true <-> In x l.
Proof.
  induction l as [|y l IH]; cbn [mem In]; [intuition discriminate|]. rewrite orb_true_iff, IH, Nat.eqb_eq. intuition congruence.
Qed.
Lemma In_insert x y l : In x (insert y l) <-> x = y \/ In x l.
Proof.
  unfold insert. destruct (mem y l) eqn:E.
  - apply mem_In in E. intuition congruence.
  - rewrite in_app_iff. cbn. intuition congruence.
Qed.
Lemma In_erase x y l : In x (erase y l) <-> In x l /\ x <> y.
Proof. unfold erase. rewrite filter_In. destruct (Nat.eqb_spec x y); cbn; intuition congruence. Qed.
Lemma NatR : forall a b : nat, reflect (a = b) (Nat.eqb a b).
Proof. intros. destruct (Nat.eqb_spec a b); constructor; assumption. Qed.

Lemma reaches_refl g a : reaches g a a.
Proof. apply rt_refl. Qed.
Lemma reaches_trans g a b c : reaches g a b -> reaches g b c -> reaches g a c.
Proof. apply rt_trans. Qed.
Lemma reaches_step g a b : calls g a b -> reaches g a b.
Proof. apply rt_step. Qed.

(** ** Counting unvisited nodes *)
Lemma filter_le {A} (p q : A -> bool) l : (forall x, In x l -> p x = true -> q x = true) ->
  (length (filter p l) <= length (filter q l))%nat.
Proof.
  induction l as [|x l IH]; intros H; cbn [filter]; [lia|].
  specialize (IH (fun y Hy => H y (or_intror Hy))).
  destruct (p x) eqn:P; [rewrite (H x (or_introl eq_refl) P); cbn; lia|]. destruct (q x); cbn; lia.
Qed.
Lemma filter_lt {A} (p q : A -> bool) l x : (forall x, In x l -> p x = true -> q x = true) ->
  In x l -> p x = false -> q x = true -> (length (filter p l) < length (filter q l))%nat.
Proof.
  induction l as [|y l IH]; intros H Hi Hp Hq; [destruct Hi|].
  pose proof (filter_le p q l (fun z Hz => H z (or_intror Hz))) as L.
  cbn [filter]. destruct Hi as [->|Hi].
  - rewrite Hp, Hq. cbn. lia.
  - specialize (IH (fun z Hz => H z (or_intror Hz)) Hi Hp Hq).
    destruct (p y) eqn:P; [rewrite (H y (or_introl eq_refl) P); cbn; lia|]. destruct (q y); cbn; lia.
Qed.
Definition unvisited (g : graph) (st : sc_state) : nat := length (filter (fun x => (sc_index st x =? 0)%nat) (g_nodes g)).

(** ** Invariant of the search with active path [P] *)
Record Inv (g : graph) (P : list nat) (st : sc_state) : Prop := {
  i_stack : forall w, In w (sc_stack st) -> sc_index st w <> 0%nat /\ ~ In w (akeys (sc_map st)) /\ In w (g_nodes g);
  i_nodup : NoDup (sc_stack st);
  i_active : forall a, In a P -> In a (sc_stack st);
  i_wit : forall w, In w (sc_stack st) -> exists a, In a P /\ reaches g w a /\ (sc_index st a <= sc_low st w)%nat;
  i_map : forall x r, aget Nat.eqb x (sc_map st) = Some r ->
    mutually_recursive g x r /\ aget Nat.eqb r (sc_map st) = Some r /\ In r (g_nodes g);
  i_cover : forall x, sc_index st x <> 0%nat -> In x (sc_stack st) \/ In x (akeys (sc_map st));
  i_keys : forall x, In x (akeys (sc_map st)) -> sc_index st x <> 0%nat
}.

Definition old_same (st st' : sc_state) : Prop :=
  (forall x, sc_index st x <> 0%nat -> sc_index st' x = sc_index st x /\ sc_low st' x = sc_low st x) /\
  (forall x r, aget Nat.eqb x (sc_map st) = Some r -> aget Nat.eqb x (sc_map st') = Some r).

Lemma aget_app {V} x (l k : list (nat * V)) :
  aget Nat.eqb x (l ++ k) = match aget Nat.eqb x l with Some v => Some v | None => aget Nat.eqb x k end.
Proof. induction l as [|[a b] l IH]; cbn [app aget]; [reflexivity|]. destruct (x =? a)%nat; [reflexivity|exact IH]. Qed.
Lemma aget_map_insert k v m x : aget Nat.eqb x (map_insert k v m) =
  match aget Nat.eqb x m with Some w => Some w | None => if (x =? k)%nat then Some v else None end.
Proof.
  unfold map_insert. destruct (aget Nat.eqb k m) as [w|] eqn:E.
  - destruct (aget Nat.eqb x m) eqn:E2; [reflexivity|]. destruct (Nat.eqb_spec x k); [subst; congruence|reflexivity].
  - rewrite aget_app. cbn [aget]. reflexivity.
Qed.
Lemma key_aget {V} x (m : list (nat * V)) : In x (akeys m) <-> exists r, aget Nat.eqb x m = Some r.
Proof.
  destruct (aget Nat.eqb x m) as [r|] eqn:E.
  - split; [eauto|]. intros _. apply (aget_In Nat.eqb NatR) in E. apply (in_map fst) in E. exact E.
  - apply (aget_None_iff Nat.eqb NatR) in E. split; [contradiction|]. intros [r H]; discriminate.
Qed.
Lemma pop_spec node ext s0 : forall m, NoDup (ext ++ [node]) -> (forall w, In w (ext ++ [node]) -> aget Nat.eqb w m = None) ->
  exists m', pop_scc node (ext ++ node :: s0) m = (s0, m') /\
    forall x, aget Nat.eqb x m' = if mem x (ext ++ [node]) then Some node else aget Nat.eqb x m.
Proof.
  induction ext as [|w ext IH]; intros m Hn Hk; cbn [app pop_scc].
  - rewrite Nat.eqb_refl. eexists. split; [reflexivity|]. intros x. rewrite aget_map_insert. cbn [mem].
    rewrite orb_false_r. destruct (Nat.eqb_spec x node) as [->|].
    + rewrite (Hk node); [reflexivity|left; reflexivity].
    + destruct (aget Nat.eqb x m); reflexivity.
  - cbn [app] in Hn. inversion Hn as [|? ? Hni Hn']; subst.
    destruct (Nat.eqb_spec w node) as [->|Hw]; [exfalso; apply Hni; apply in_app_iff; right; left; reflexivity|].
    destruct (IH (map_insert w node m) Hn') as [m' [E1 E2]].
    + intros x Hx. rewrite aget_map_insert. rewrite (Hk x); [|right; exact Hx].
      destruct (Nat.eqb_spec x w) as [->|]; [contradiction|reflexivity].
    + exists m'. split; [exact E1|]. intros x. rewrite E2. cbn [mem]. rewrite aget_map_insert.
      destruct (Nat.eqb_spec x w) as [->|]; cbn [orb].
      * destruct (mem w (ext ++ [node])); [reflexivity|]. rewrite (Hk w); [reflexivity|left; reflexivity].
      * destruct (mem x (ext ++ [node])); [reflexivity|]. destruct (aget Nat.eqb x m); reflexivity.
Qed.

Lemma upd_same {A} (f : nat -> A) k v : upd f k v k = v.
Proof. unfold upd. rewrite Nat.eqb_refl. reflexivity. Qed.
Lemma upd_other {A} (f : nat -> A) k v x : x <> k -> upd f k v x = f x.
Proof. unfold upd. intros H. destruct (Nat.eqb_spec x k); [contradiction|reflexivity]. Qed.
Lemma old_same_trans a b c : (forall x, sc_index a x <> 0%nat -> sc_index b x <> 0%nat) ->
  old_same a b -> old_same b c -> old_same a c.
Proof.
  intros _ [H1 H2] [H3 H4]. split.
  - intros x Hx. destruct (H1 x Hx) as [A B]. destruct (H3 x) as [C D]; [congruence|]. split; congruence.
  - intros x r H. auto.
Qed.

Lemma NoDup_app_left {A} (l k : list A) : NoDup (l ++ k) -> NoDup l.
Proof.
  induction l as [|x l IH]; cbn [app]; intros H; [constructor|]. inversion H; subst. constructor; [|auto].
  intros Hi. apply H2, in_app_iff. left. exact Hi.
Qed.

(** What a visit of an unvisited node does. *)
Definition visit_ok (g : graph) (P : list nat) (v index : nat) (st st' : sc_state) : Prop :=
  Inv g P st' /\ sc_index st' v <> 0%nat /\ old_same st st' /\
  (exists ext, sc_stack st' = ext ++ sc_stack st /\ forall w, In w ext -> reaches g v w) /\
  (In v (sc_stack st') \/ sc_low st' v = index).

Definition lower (node c : nat) (st : sc_state) : sc_state :=
  ScState (sc_index st) (upd (sc_low st) node (Nat.min (sc_low st node) (sc_low st c))) (sc_stack st) (sc_map st).
Lemma lower_inv g P v c st : Inv g P st -> In v P -> calls g v c -> (In c (sc_stack st) \/ (sc_low st v <= sc_low st c)%nat) ->
  Inv g P (lower v c st).
Proof.
  intros I Hv Hc Hor. destruct I as [I1 I2 I3 I4 I5 I6 I7].
  constructor; cbn [lower sc_stack sc_index sc_low sc_map]; auto.
  intros w Hw. destruct (Nat.eq_dec w v) as [->|N].
  - rewrite upd_same. destruct (le_lt_dec (sc_low st v) (sc_low st c)) as [L|L].
    + rewrite Nat.min_l by lia. auto.
    + destruct Hor as [Hor|Hor]; [|lia]. rewrite Nat.min_r by lia. destruct (I4 c Hor) as [a [A [B C]]].
      exists a. split; [exact A|]. split; [|exact C]. eapply reaches_trans; [apply reaches_step; exact Hc|exact B].
  - rewrite upd_other by exact N. auto.
Qed.

Lemma unvisited_mono g st st' : old_same st st' -> (unvisited g st' <= unvisited g st)%nat.
Proof.
  intros [H _]. apply filter_le. intros x _. rewrite !Nat.eqb_eq. intros E.
  destruct (Nat.eq_dec (sc_index st x) 0) as [Z|N]; [exact Z|]. destruct (H x N). congruence.
Qed.

Lemma sc_loop_ok g P v fuel index stack0 st0 : graph_ok g ->
  (forall P c st, Inv g P st -> In c (g_nodes g) -> sc_index st c = 0%nat -> (forall a, In a P -> reaches g a c) ->
     (unvisited g st <= fuel)%nat ->
     exists st', StrongConnect fuel g c (S index) st = Some st' /\ visit_ok g P c (S index) st st') ->
  (forall a, In a P -> reaches g a v) ->
  sc_index st0 v = 0%nat ->
  forall cs st, (forall c, In c cs -> calls g v c /\ In c (g_nodes g)) ->
  Inv g (v :: P) st -> (sc_low st v <= index)%nat -> sc_index st v = index -> (unvisited g st <= fuel)%nat ->
  old_same st0 st ->
  (exists ext, sc_stack st = ext ++ v :: stack0 /\ forall w, In w ext -> reaches g v w) ->
  exists st', sc_loop (fun c s => StrongConnect fuel g c (S index) s) v cs st = Some st' /\
    Inv g (v :: P) st' /\ (sc_low st' v <= index)%nat /\ sc_index st' v = index /\ old_same st0 st' /\
    (exists ext, sc_stack st' = ext ++ v :: stack0 /\ forall w, In w ext -> reaches g v w).
Proof.
  intros G IHv HP Hv0. induction cs as [|c cs IH]; intros st Hcs I Hlow Hidx Hun Hold Hext.
  - exists st. cbn [sc_loop]. auto 10.
  - cbn [sc_loop]. change (ScState (sc_index ?s) (upd (sc_low ?s) v (Nat.min (sc_low ?s v) (sc_low ?s c))) (sc_stack ?s) (sc_map ?s)) with (lower v c s).
    destruct (Hcs c (or_introl eq_refl)) as [Hc1 Hc2].
    assert (Hcs' : forall c, In c cs -> calls g v c /\ In c (g_nodes g)) by (intros; apply Hcs; right; assumption).
    assert (Hlo : forall s, old_same st0 s -> old_same st0 (lower v c s)).
    { intros s [A B]. split; cbn [lower sc_index sc_low sc_map]; [|exact B]. intros x Hx. destruct (A x Hx) as [A1 A2].
      rewrite upd_other by congruence. auto. }
    assert (Hnv : sc_index st v <> 0%nat) by (apply (i_stack _ _ _ I), (i_active _ _ _ I); left; reflexivity).
    destruct (Nat.eqb_spec (sc_index st c) 0) as [Hc0|Hc0].
    + destruct (IHv (v :: P) c st I Hc2 Hc0) as [st' [E V]].
      { intros a [<-|Ha]; [apply reaches_step; exact Hc1|]. eapply reaches_trans; [apply HP; exact Ha|apply reaches_step; exact Hc1]. }
      { exact Hun. }
      rewrite E. destruct V as [I' [Vi [Vo [[ext [Ve1 Ve2]] Vl]]]].
      destruct (proj1 Vo v Hnv) as [Ev1 Ev2].
      assert (old_same st0 st') by (eapply old_same_trans; [| |exact Vo]; [|exact Hold]; intros x Hx; destruct (proj1 Hold x Hx); congruence).
      apply IH; auto.
      * apply lower_inv; auto; [left; reflexivity|]. destruct Vl as [Vl|Vl]; [left; exact Vl|right; lia].
      * cbn [lower sc_low]. rewrite upd_same. lia.
      * cbn [lower sc_index]. congruence.
      * change (unvisited g (lower v c st')) with (unvisited g st'). pose proof (unvisited_mono g _ _ Vo). lia.
      * destruct Hext as [e0 [He1 He2]]. exists (ext ++ e0). cbn [lower sc_stack]. rewrite Ve1, He1, app_assoc. split; [reflexivity|].
        intros w Hw. apply in_app_iff in Hw as [Hw|Hw]; [|auto]. eapply reaches_trans; [apply reaches_step; exact Hc1|auto].
    + destruct (mem c (sc_stack st)) eqn:M.
      * apply mem_In in M. apply IH; auto.
        -- apply lower_inv; auto. left; reflexivity.
        -- cbn [lower sc_low]. rewrite upd_same. lia.
      * apply IH; auto.
Qed.

Lemma SC_ok g : graph_ok g -> forall fuel P v index st, index <> 0%nat ->
  Inv g P st -> In v (g_nodes g) -> sc_index st v = 0%nat -> (forall a, In a P -> reaches g a v) ->
  (unvisited g st <= fuel)%nat ->
  exists st', StrongConnect fuel g v index st = Some st' /\ visit_ok g P v index st st'.
Proof.
  intros G. induction fuel as [|fuel IHf]; intros P v index st Hix I Hv Hv0 HP Hun.
  - exfalso. unfold unvisited in Hun.
    assert (In v (filter (fun x => (sc_index st x =? 0)%nat) (g_nodes g))) as Hin by (apply filter_In; rewrite Hv0; auto).
    destruct (filter (fun x => (sc_index st x =? 0)%nat) (g_nodes g)); [destruct Hin|cbn in Hun; lia].
  - cbn [StrongConnect].
    set (st1 := ScState (upd (sc_index st) v index) (upd (sc_low st) v index) (v :: sc_stack st) (sc_map st)).
    assert (Hnv : ~ In v (sc_stack st)) by (intros H; apply (i_stack _ _ _ I) in H; tauto).
    assert (Hnk : ~ In v (akeys (sc_map st))) by (intros H; apply (i_keys _ _ _ I) in H; tauto).
    assert (Hold1 : old_same st st1).
    { split; cbn [st1 sc_index sc_low sc_map]; [|auto]. intros x Hx. rewrite !upd_other by congruence. auto. }
    assert (I1 : Inv g (v :: P) st1).
    { constructor; unfold st1; cbn [sc_index sc_low sc_map sc_stack].
      - intros w [<-|Hw]; [rewrite upd_same; auto|]. rewrite upd_other by congruence. apply (i_stack _ _ _ I); exact Hw.
      - constructor; [exact Hnv|apply (i_nodup _ _ _ I)].
      - intros a [<-|Ha]; [left; reflexivity|right; apply (i_active _ _ _ I); exact Ha].
      - intros w [<-|Hw].
        + exists v. rewrite !upd_same. split; [left; reflexivity|]. split; [apply reaches_refl|lia].
        + destruct (i_wit _ _ _ I w Hw) as [a [A [B C]]]. exists a. split; [right; exact A|]. split; [exact B|].
          pose proof (i_active _ _ _ I a A). rewrite !upd_other by congruence. exact C.
      - exact (i_map _ _ _ I).
      - intros x Hx. destruct (Nat.eq_dec x v) as [->|N]; [left; left; reflexivity|]. rewrite upd_other in Hx by exact N.
        destruct (i_cover _ _ _ I x Hx); [left; right; assumption|right; assumption].
      - intros x Hx. rewrite upd_other by congruence. apply (i_keys _ _ _ I); exact Hx. }
    assert (Hun1 : (unvisited g st1 <= fuel)%nat).
    { assert (unvisited g st1 < unvisited g st)%nat; [|lia]. unfold unvisited. eapply filter_lt with (x := v); [|exact Hv| |].
      - intros x _. unfold st1. cbn [sc_index]. unfold upd. destruct (Nat.eqb_spec x v) as [->|]; [rewrite Hv0; reflexivity|auto].
      - unfold st1. cbn [sc_index]. rewrite upd_same. apply Nat.eqb_neq. exact Hix.
      - rewrite Hv0. reflexivity. }
    destruct (sc_loop_ok g P v fuel index (sc_stack st) st G) with (cs := g_callees g v) (st := st1)
      as [st2 [E2 [I2 [L2 [X2 [O2 [ext [S2 R2]]]]]]]]; auto.
    { intros c Hc. split; [exact Hc|]. eapply (proj2 G); [exact Hv|exact Hc]. }
    { unfold st1. cbn [sc_low]. rewrite upd_same. lia. }
    { unfold st1. cbn [sc_index]. rewrite upd_same. reflexivity. }
    { exists []. split; [reflexivity|intros ? []]. }
    rewrite E2. destruct (Nat.eqb_spec (sc_index st2 v) (sc_low st2 v)) as [Heq|Hne].
    + (* pop *)
      rewrite S2.
      assert (ND : NoDup (ext ++ v :: sc_stack st)) by (rewrite <- S2; apply (i_nodup _ _ _ I2)).
      assert (ND1 : NoDup (ext ++ [v])).
      { apply NoDup_app_left with (k := sc_stack st). rewrite <- app_assoc. exact ND. }
      assert (Hdis : forall x, In x (ext ++ [v]) -> ~ In x (sc_stack st)).
      { intros x Hx Hx2. change (v :: sc_stack st) with ([v] ++ sc_stack st) in ND. rewrite app_assoc in ND.
        clear - ND Hx Hx2. induction (ext ++ [v]) as [|y l IH]; [destruct Hx|]. cbn [app] in ND. inversion ND; subst.
        destruct Hx as [->|Hx]; [|auto]. apply H1, in_app_iff. right. exact Hx2. }
      assert (Hst2 : forall x, In x (sc_stack st2) <-> In x (ext ++ [v]) \/ In x (sc_stack st)).
      { intros x. rewrite S2, !in_app_iff. cbn [In]. tauto. }
      assert (Hnone : forall w, In w (ext ++ [v]) -> aget Nat.eqb w (sc_map st2) = None).
      { intros w Hw. apply (aget_None_iff Nat.eqb NatR). apply (i_stack _ _ _ I2), Hst2. left; exact Hw. }
      destruct (pop_spec v ext (sc_stack st) (sc_map st2) ND1 Hnone) as [m' [E3 E4]]. rewrite E3.
      assert (Hreach : forall w, In w (ext ++ [v]) -> mutually_recursive g w v).
      { intros w Hw. apply in_app_iff in Hw. split.
        - assert (Hw2 : In w (sc_stack st2)) by (apply Hst2; left; apply in_app_iff; exact Hw).
          destruct (i_wit _ _ _ I2 w Hw2) as [a [[<-|A] [B _]]]; [exact B|]. eapply reaches_trans; [exact B|auto].
        - destruct Hw as [Hw|[<-|[]]]; [auto|apply reaches_refl]. }
      assert (Hk' : forall x, In x (akeys m') <-> In x (ext ++ [v]) \/ In x (akeys (sc_map st2))).
      { intros x. rewrite !key_aget. split.
        - intros [r Hr]. rewrite E4 in Hr. destruct (mem x (ext ++ [v])) eqn:M; [left; apply mem_In; exact M|right; eauto].
        - intros [H|[r H]].
          + exists v. rewrite E4. apply mem_In in H. rewrite H. reflexivity.
          + rewrite E4. destruct (mem x (ext ++ [v])); eauto. }
      eexists. split; [reflexivity|]. unfold visit_ok.
      split; [constructor; cbn [sc_index sc_low sc_map sc_stack]|].
      * intros w Hw. destruct (i_stack _ _ _ I2 w) as [A [B C]]; [apply Hst2; right; exact Hw|]. split; [exact A|]. split; [|exact C].
        rewrite Hk'. intros [H|H]; [exact (Hdis _ H Hw)|exact (B H)].
      * apply (i_nodup _ _ _ I).
      * apply (i_active _ _ _ I).
      * intros w Hw. destruct (i_wit _ _ _ I w Hw) as [a [A [B C]]]. exists a. split; [exact A|]. split; [exact B|].
        destruct (proj1 O2 w) as [_ Q]; [apply (i_stack _ _ _ I); exact Hw|].
        destruct (proj1 O2 a) as [Q1 _]; [apply (i_stack _ _ _ I), (i_active _ _ _ I); exact A|]. rewrite Q, Q1. exact C.
      * intros x r. rewrite !E4. destruct (mem x (ext ++ [v])) eqn:M.
        -- intros [= <-]. apply mem_In in M. split; [apply Hreach; exact M|]. split; [|exact Hv].
           replace (mem v (ext ++ [v])) with true; [reflexivity|]. symmetry. apply mem_In, in_app_iff. right; left; reflexivity.
        -- intros H. destruct (i_map _ _ _ I2 x r H) as [A [B C]]. split; [exact A|]. split; [|exact C].
           destruct (mem r (ext ++ [v])) eqn:M2; [|exact B]. apply mem_In in M2. rewrite (Hnone r M2) in B. discriminate.
      * intros x Hx. destruct (i_cover _ _ _ I2 x Hx) as [H|H]; [|right; apply Hk'; right; exact H].
        apply Hst2 in H as [H|H]; [right; apply Hk'; left; exact H|left; exact H].
      * intros x Hx. apply Hk' in Hx as [Hx|Hx]; [|apply (i_keys _ _ _ I2); exact Hx].
        apply (i_stack _ _ _ I2), Hst2. left; exact Hx.
      * cbn [sc_index sc_low sc_map sc_stack]. split; [congruence|]. split.
        { destruct O2 as [O3 O4]. split; [exact O3|]. cbn [sc_map]. intros x r H. rewrite E4. destruct (mem x (ext ++ [v])) eqn:M; [|auto].
          apply mem_In in M. apply Hnone in M. apply O4 in H. congruence. }
        split; [exists []; split; [reflexivity|intros ? []]|]. right. congruence.
    + eexists. split; [reflexivity|]. unfold visit_ok.
      assert (HvS : In v (sc_stack st2)) by (apply (i_active _ _ _ I2); left; reflexivity).
      destruct (i_wit _ _ _ I2 v HvS) as [a [A [B C]]].
      assert (A' : In a P) by (destruct A as [<-|A]; [lia|exact A]).
      split; [|split; [congruence|split; [exact O2|split]]].
      * destruct I2 as [J1 J2 J3 J4 J5 J6 J7]. constructor; auto; [intros; apply J3; right; assumption|].
        intros w Hw. destruct (J4 w Hw) as [b [[<-|B1] [B2 B3]]]; [|eauto].
        exists a. split; [exact A'|]. split; [eapply reaches_trans; eassumption|lia].
      * exists (ext ++ [v]). rewrite S2, <- app_assoc. split; [reflexivity|]. intros w Hw.
        apply in_app_iff in Hw as [Hw|[<-|[]]]; [auto|apply reaches_refl].
      * left. exact HvS.
Qed.

(** ** The whole search *)
Lemma find_sccs_ok g fuel : graph_ok g -> (length (g_nodes g) <= fuel)%nat -> forall l st,
  Inv g [] st -> (forall x, In x l -> In x (g_nodes g)) ->
  exists st', find_sccs fuel g l st = Some st' /\ Inv g [] st' /\ old_same st st' /\
    forall x, In x l -> sc_index st' x <> 0%nat.
Proof.
  intros G F. induction l as [|x l IH]; intros st I Hl.
  - exists st. split; [reflexivity|]. split; [exact I|]. split; [split; auto|intros ? []].
  - cbn [find_sccs]. destruct (Nat.eqb_spec (sc_index st x) 0) as [E|E].
    + assert (U : (unvisited g st <= fuel)%nat).
      { unfold unvisited. etransitivity; [|exact F]. clear. induction (g_nodes g) as [|y l IH]; cbn [filter]; [lia|].
        destruct (sc_index st y =? 0)%nat; cbn [length]; lia. }
      destruct (SC_ok g G fuel [] x 1 st) as [st1 [E1 V]]; auto; [apply Hl; left; reflexivity|intros ? []|].
      rewrite E1. destruct V as [I1 [V1 [V2 _]]].
      destruct (IH st1 I1) as [st' [E2 [I2 [O2 N2]]]]; [intros; apply Hl; right; assumption|].
      exists st'. split; [exact E2|]. split; [exact I2|]. split.
      * eapply old_same_trans; [|exact V2|exact O2]. intros y Hy. destruct (proj1 V2 y Hy). congruence.
      * intros y [<-|Hy]; [|auto]. destruct (proj1 O2 x V1). congruence.
    + destruct (IH st I) as [st' [E2 [I2 [O2 N2]]]]; [intros; apply Hl; right; assumption|].
      exists st'. split; [exact E2|]. split; [exact I2|]. split; [exact O2|].
      intros y [<-|Hy]; [|auto]. destruct (proj1 O2 x E). congruence.
Qed.
Lemma init_inv g : Inv g [] sc_init.
Proof.
  constructor; cbn [sc_init sc_stack sc_index sc_low sc_map akeys map]; try (intros ? []; fail); try (intros; contradiction).
  - constructor.
  - intros x r H. discriminate.
Qed.
Lemma sccmap_ok g : graph_ok g -> exists m, sccmap g = Some m /\
  (forall x r, aget Nat.eqb x m = Some r -> mutually_recursive g x r /\ aget Nat.eqb r m = Some r /\ In r (g_nodes g)) /\
  (forall x, In x (g_nodes g) -> exists r, aget Nat.eqb x m = Some r).
Proof.
  intros G. destruct (find_sccs_ok g (S (length (g_nodes g))) G ltac:(lia) (g_nodes g) sc_init (init_inv g)) as [st [E [I [_ N]]]]; [auto|].
  exists (sc_map st). unfold sccmap. rewrite E. split; [reflexivity|]. split; [apply (i_map _ _ _ I)|].
  intros x Hx. apply key_aget. destruct (i_cover _ _ _ I x (N x Hx)) as [H|H]; [|exact H].
  destruct (i_wit _ _ _ I x H) as [a [[] _]].
Qed.
