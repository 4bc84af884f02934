From Verif Require Import Base SccModel SccSpec SccProofs.
From Coq Require Import Relations.Relation_Operators Relations.Operators_Properties.

(** ** CollapseSCC *)
Definition idem (m : list (nat * nat)) : Prop := forall x, root m (root m x) = root m x.

(** A call from the group of [r] to the group of [x], by one of [ws]. *)
Definition group_call (m : list (nat * nat)) (g : graph) (ws : list nat) (r x : nat) : Prop :=
  x <> r /\ exists w y, In w ws /\ root m w = r /\ In y (g_callees g w) /\ root m y = x.

Lemma fold_insert m r cs : forall acc x,
  In x (fold_left (fun cs c => if negb (root m c =? r)%nat then insert (root m c) cs else cs) cs acc) <->
  In x acc \/ (x <> r /\ exists y, In y cs /\ root m y = x).
Proof.
  induction cs as [|c cs IH]; intros acc x; cbn [fold_left].
  - split; [auto|]. intros [H|[_ [y [[] _]]]]. exact H.
  - rewrite IH. destruct (Nat.eqb_spec (root m c) r) as [E|E]; cbn [negb].
    + split.
      * intros [H|[N [y [Hy Ey]]]]; [left; exact H|]. right. split; [exact N|]. exists y. split; [right; exact Hy|exact Ey].
      * intros [H|[N [y [[<-|Hy] Ey]]]]; [left; exact H|congruence|]. right. split; [exact N|]. eauto.
    + rewrite In_insert. split.
      * intros [[H|H]|[N [y [Hy Ey]]]]; [|auto|].
        { right. subst x. split; [exact E|]. exists c. split; [left; reflexivity|reflexivity]. }
        right. split; [exact N|]. exists y. split; [right; exact Hy|exact Ey].
      * intros [H|[N [y [[<-|Hy] Ey]]]]; [auto|auto|]. right. split; [exact N|]. eauto.
Qed.
Lemma fold_erase m : idem m -> forall te acc x, (forall c, In c te -> c <> root m c) ->
  In x (fold_left (fun cs c => insert (root m c) (erase c cs)) te acc) <->
  (In x acc /\ ~ In x te) \/ (exists y, In y te /\ root m y = x).
Proof.
  intros Hid. induction te as [|c te IH]; intros acc x Hte; cbn [fold_left].
  - split; [intros H; left; split; [exact H|intros []]|]. intros [[H _]|[y [[] _]]]. exact H.
  - rewrite IH by (intros; apply Hte; right; assumption). rewrite In_insert, In_erase.
    assert (Hc : c <> root m c) by (apply Hte; left; reflexivity).
    split.
    + intros [[[H|[H1 H2]] H3]|[y [Hy Ey]]].
      * right. exists c. split; [left; reflexivity|congruence].
      * left. split; [exact H1|]. intros [->|H]; [congruence|contradiction].
      * right. exists y. split; [right; exact Hy|exact Ey].
    + intros [[H1 H2]|[y [[<-|Hy] Ey]]].
      * left. split; [right; split; [exact H1|intros ->; apply H2; left; reflexivity]|intros H; apply H2; right; exact H].
      * left. split; [left; congruence|]. intros H. apply (Hte x); [right; exact H|]. rewrite <- Ey. symmetry. apply Hid.
      * right. eauto.
Qed.

Lemma collapse_inv m g : idem m -> forall done todo cal, NoDup (done ++ todo) ->
  (forall z, root m z <> z -> cal z = g_callees g z) ->
  (forall z, root m z = z -> In z done -> forall x, In x (cal z) <-> group_call m g done z x) ->
  (forall z, root m z = z -> ~ In z done -> forall x, In x (cal z) <-> In x (g_callees g z) \/ group_call m g done z x) ->
  forall z x, In z (done ++ todo) -> root m z = z ->
  (In x (fold_left (collapse_step m) todo cal z) <-> group_call m g (done ++ todo) z x).
Proof.
  intros Hid done todo. revert done. induction todo as [|n todo IH]; intros done cal ND H1 H2 H3 z x Hz Hr.
  - rewrite app_nil_r in *. cbn [fold_left]. apply H2; assumption.
  - cbn [fold_left]. replace (done ++ n :: todo) with ((done ++ [n]) ++ todo) in * by (rewrite <- app_assoc; reflexivity).
    assert (Hn : ~ In n done).
    { apply NoDup_app_left in ND. clear - ND. induction done as [|d l IH]; [auto|]. cbn [app] in ND. inversion ND; subst.
      intros [->|H]; [apply H1, in_app_iff; right; left; reflexivity|]. apply IH; assumption. }
    assert (GC : forall r y, group_call m g (done ++ [n]) r y <->
      group_call m g done r y \/ (root m n = r /\ y <> r /\ exists c, In c (g_callees g n) /\ root m c = y)).
    { intros r y. unfold group_call. split.
      - intros [N [w [c [Hw [A [B C]]]]]]. apply in_app_iff in Hw as [Hw|[<-|[]]].
        + left. split; [exact N|]. exists w, c. auto.
        + right. split; [exact A|]. split; [exact N|]. eauto.
      - intros [[N [w [c [Hw [A [B C]]]]]]|[A [N [c [B C]]]]]; (split; [exact N|]).
        + exists w, c. split; [apply in_app_iff; left; exact Hw|]. auto.
        + exists n, c. split; [apply in_app_iff; right; left; reflexivity|]. auto. }
    apply (IH (done ++ [n])); auto; clear z x Hz Hr; unfold collapse_step; intros z Hz.
    + (* non-roots unchanged *)
      destruct (Nat.eqb_spec n (root m n)) as [E|E]; cbn [negb]; rewrite upd_other; auto.
      * intros ->. apply Hz. congruence.
      * intros ->. apply Hz. apply Hid.
    + (* processed roots *)
      intros Hin x. rewrite GC. destruct (Nat.eqb_spec n (root m n)) as [E|E]; cbn [negb].
      * destruct (Nat.eq_dec z n) as [->|Nz].
        -- rewrite upd_same, In_erase, (fold_erase m Hid).
           2: { intros c Hc. apply filter_In in Hc as [_ Hc]. destruct (Nat.eqb_spec c (root m c)); [discriminate|assumption]. }
           pose proof (H3 n Hz Hn) as H3n. split.
           ++ intros [[[A B]|[y [A B]]] C].
              ** apply H3n in A as [A|A]; [|left; exact A]. right. split; [exact Hz|]. split; [exact C|]. exists x. split; [exact A|].
                 destruct (Nat.eq_dec (root m x) x) as [Q|Q]; [exact Q|]. exfalso. apply B. apply filter_In.
                 split; [apply H3n; left; exact A|]. destruct (Nat.eqb_spec x (root m x)); [congruence|reflexivity].
              ** apply filter_In in A as [A _]. apply H3n in A as [A|A].
                 --- right. split; [exact Hz|]. split; [exact C|]. eauto.
                 --- left. destruct A as [A1 [w [c [A2 [A3 [A4 A5]]]]]]. split; [exact C|]. exists w, c. repeat split; auto.
                     rewrite <- B. rewrite <- A5 in B |- *. rewrite Hid. reflexivity.
           ++ intros [A|[A [C [c [B D]]]]].
              ** split; [|apply A]. left. split; [apply H3n; right; exact A|]. intros Q. apply filter_In in Q as [_ Q].
                 destruct A as [_ [w [c [_ [_ [_ A5]]]]]]. rewrite <- A5, Hid, Nat.eqb_refl in Q. discriminate.
              ** split; [|exact C]. destruct (Nat.eq_dec (root m c) c) as [Q|Q].
                 --- left. rewrite <- D, Q. split; [apply H3n; left; exact B|]. intros R. apply filter_In in R as [_ R].
                     rewrite Q, Nat.eqb_refl in R. discriminate.
                 --- right. exists c. split; [|exact D]. apply filter_In. split; [apply H3n; left; exact B|].
                     destruct (Nat.eqb_spec c (root m c)); [congruence|reflexivity].
        -- rewrite upd_other by exact Nz. rewrite H2; auto.
           ++ split; [auto|]. intros [A|[A _]]; [exact A|congruence].
           ++ apply in_app_iff in Hin as [Hin|[Hin|[]]]; [exact Hin|congruence].
      * destruct (Nat.eq_dec z (root m n)) as [->|Nz].
        -- rewrite upd_same, fold_insert, H2; auto.
           ++ rewrite (H1 n) by congruence. split; [intros [A|[A B]]; auto|]. intros [A|[_ A]]; auto.
           ++ apply in_app_iff in Hin as [Hin|[Hin|[]]]; [exact Hin|congruence].
        -- rewrite upd_other by exact Nz. rewrite H2; auto.
           ++ split; [auto|]. intros [A|[A _]]; [exact A|congruence].
           ++ apply in_app_iff in Hin as [Hin|[Hin|[]]]; [exact Hin|congruence].
    + (* roots not yet processed *)
      intros Hin x. rewrite GC. assert (Nz : z <> n) by (intros ->; apply Hin, in_app_iff; right; left; reflexivity).
      assert (Hin' : ~ In z done) by (intros Q; apply Hin, in_app_iff; left; exact Q).
      destruct (Nat.eqb_spec n (root m n)) as [E|E]; cbn [negb].
      * rewrite upd_other by exact Nz. rewrite H3; auto. split; [intros [A|A]; auto|]. intros [A|[A|[A _]]]; auto. congruence.
      * destruct (Nat.eq_dec z (root m n)) as [->|Nr].
        -- rewrite upd_same, fold_insert, H3; auto. rewrite (H1 n) by congruence.
           split; [intros [[A|A]|[A B]]; auto 6|]. intros [A|[A|[_ A]]]; auto.
        -- rewrite upd_other by exact Nr. rewrite H3; auto. split; [intros [A|A]; auto|]. intros [A|[A|[A _]]]; auto. congruence.
Qed.
Lemma collapse_callees m g r x : idem m -> NoDup (g_nodes g) -> In r (g_nodes g) -> root m r = r ->
  (In x (g_callees (CollapseSCC m g) r) <-> group_call m g (g_nodes g) r x).
Proof.
  intros Hid ND Hr Hrr. unfold CollapseSCC. cbn [g_callees].
  assert (E : forall z y, group_call m g [] z y -> False) by (intros z y [_ [w [c [[] _]]]]).
  apply (collapse_inv m g Hid [] (g_nodes g)); auto.
  - intros z _ [].
  - intros z _ _ y. split; [auto|]. intros [A|A]; [exact A|destruct (E _ _ A)].
Qed.

(** ** The topological sort *)
Definition plus (g : graph) (a b : nat) : Prop := exists c, calls g a c /\ reaches g c b.
Definition ordered (g : graph) (s : list nat) : Prop :=
  forall l1 x l2, s = l1 ++ x :: l2 -> forall c, In c (g_callees g x) -> In c l1.
Lemma ordered_snoc g s x : ordered g s -> (forall c, In c (g_callees g x) -> In c s) -> ordered g (s ++ [x]).
Proof.
  intros H Hx l1 y l2 E c Hc. destruct l2 as [|z l2 _] using rev_ind.
  - apply app_inj_tail in E as [E1 E2]. subst. auto.
  - rewrite app_comm_cons, app_assoc in E. apply app_inj_tail in E as [E1 E2]. eapply H; [exact E1|exact Hc].
Qed.
Record TInv (g : graph) (P : list nat) (st : tv_state) : Prop := {
  t_pre : forall x, In x (tv_pre st) <-> In x P \/ In x (tv_post st);
  t_dis : forall x, In x P -> ~ In x (tv_post st);
  t_post : forall x, In x (tv_post st) <-> In x (tv_sorted st);
  t_nd : NoDup (tv_sorted st);
  t_ord : ordered g (tv_sorted st);
  t_in : forall x, In x (tv_sorted st) -> In x (g_nodes g)
}.
Definition unpre (g : graph) (st : tv_state) : nat := length (filter (fun x => negb (mem x (tv_pre st))) (g_nodes g)).
(** Either the visit succeeds or there is a loop. *)
Definition tv_post_ok (g : graph) (P : list nat) (v : nat) (st : tv_state) (o : outcome tv_state) : Prop :=
  match o with
  | Ok st' => TInv g P st' /\ In v (tv_post st') /\ (forall x, In x (tv_post st) -> In x (tv_post st'))
  | Abort => exists a, In a (g_nodes g) /\ plus g a a
  | UB => False
  end.
Lemma unpre_mono g P st st' : TInv g P st -> TInv g P st' -> (forall x, In x (tv_post st) -> In x (tv_post st')) ->
  (unpre g st' <= unpre g st)%nat.
Proof.
  intros T T' H. apply filter_le. intros x _ Hx. destruct (mem x (tv_pre st)) eqn:M; [|reflexivity].
  apply mem_In, (t_pre _ _ _ T) in M. replace (mem x (tv_pre st')) with true in Hx; [discriminate|].
  symmetry. apply mem_In, (t_pre _ _ _ T'). destruct M; auto.
Qed.

Lemma tv_loop_ok g P fuel :
  forall cs st,
  (forall c st, In c cs -> TInv g P st -> (unpre g st < fuel)%nat -> tv_post_ok g P c st (TopoVisit fuel g c st)) ->
  TInv g P st -> (unpre g st < fuel)%nat ->
  match tv_loop (TopoVisit fuel g) cs st with
  | Ok st' => TInv g P st' /\ (forall c, In c cs -> In c (tv_post st')) /\ (forall x, In x (tv_post st) -> In x (tv_post st'))
  | Abort => exists a, In a (g_nodes g) /\ plus g a a
  | UB => False
  end.
Proof.
  induction cs as [|c cs IH]; intros st Hv T U; cbn [tv_loop].
  - split; [exact T|]. split; [intros ? []|auto].
  - pose proof (Hv c st (or_introl eq_refl) T U) as V. unfold tv_post_ok in V. destruct (TopoVisit fuel g c st) as [st1| |]; cbn [obind]; [|exact V|exact V].
    destruct V as [T1 [V1 V2]]. pose proof (unpre_mono _ _ _ _ T T1 V2) as Um.
    specialize (IH st1 (fun d s Hd => Hv d s (or_intror Hd)) T1 ltac:(lia)).
    destruct (tv_loop (TopoVisit fuel g) cs st1) as [st2| |]; [|exact IH|exact IH].
    destruct IH as [T2 [A B]]. split; [exact T2|]. split; [|auto]. intros d [<-|Hd]; auto.
Qed.
Lemma TV_ok g : (forall a b, In a (g_nodes g) -> In b (g_callees g a) -> In b (g_nodes g)) ->
  forall fuel P v st, TInv g P st -> In v (g_nodes g) -> (forall a, In a P -> plus g a v) ->
  (unpre g st < fuel)%nat -> tv_post_ok g P v st (TopoVisit fuel g v st).
Proof.
  intros G. induction fuel as [|fuel IH]; intros P v st T Hv HP U; [lia|]. cbn [TopoVisit].
  destruct (mem v (tv_post st)) eqn:M1.
  { apply mem_In in M1. cbn [tv_post_ok]. auto. }
  assert (N1 : ~ In v (tv_post st)) by (intros Q; apply mem_In in Q; congruence).
  destruct (mem v (tv_pre st)) eqn:M2.
  { apply mem_In, (t_pre _ _ _ T) in M2 as [M2|M2]; [|contradiction]. cbn [tv_post_ok]. exists v. auto. }
  assert (N2 : ~ In v (tv_pre st)) by (intros Q; apply mem_In in Q; congruence).
  assert (N3 : ~ In v P) by (intros Q; apply N2, (t_pre _ _ _ T); left; exact Q).
  set (st1 := TvState (v :: tv_pre st) (tv_post st) (tv_sorted st)).
  assert (T1 : TInv g (v :: P) st1).
  { destruct T as [A B C D E F]. unfold st1. constructor; cbn [tv_pre tv_post tv_sorted]; auto.
    - intros x. cbn [In]. rewrite A. tauto.
    - intros x [<-|Hx]; auto. }
  assert (U1 : (unpre g st1 < fuel)%nat).
  { assert (unpre g st1 < unpre g st)%nat; [|lia]. unfold unpre. apply filter_lt with (x := v).
    - intros x _. unfold st1. cbn [tv_pre mem]. destruct (x =? v)%nat; cbn; [discriminate|auto].
    - exact Hv.
    - unfold st1. cbn [tv_pre mem]. rewrite Nat.eqb_refl. reflexivity.
    - rewrite M2. reflexivity. }
  pose proof (tv_loop_ok g (v :: P) fuel (g_callees g v) st1) as L. 
  specialize (L ltac:(intros c s Hc Ts Us; apply IH; auto; [eapply G; eassumption|];
    intros a [<-|Ha]; [exists c; split; [exact Hc|apply reaches_refl]|];
    destruct (HP a Ha) as [d [D1 D2]]; exists d; split; [exact D1|]; eapply reaches_trans; [exact D2|apply reaches_step; exact Hc]) T1 U1).
  destruct (tv_loop (TopoVisit fuel g) (g_callees g v) st1) as [st2| |]; cbn [obind tv_post_ok]; [|exact L|exact L].
  destruct L as [T2 [L1 L2]]. pose proof (t_dis _ _ _ T2 v (or_introl eq_refl)) as Nv.
  destruct T2 as [A B C D E F]. split; [constructor; cbn [tv_pre tv_post tv_sorted]|split].
  - intros x. rewrite A. cbn [In]. tauto.
  - intros x Hx [->|Q]; [contradiction|]. apply (B x); [right; exact Hx|exact Q].
  - intros x. rewrite in_app_iff. cbn [In]. rewrite C. tauto.
  - apply NoDup_snoc; [exact D|]. rewrite <- C. exact Nv.
  - apply ordered_snoc; [exact E|]. intros c Hc. apply C. auto.
  - intros x Hx. apply in_app_iff in Hx as [Hx|[<-|[]]]; auto.
  - left; reflexivity.
  - intros x Hx. right. apply L2. exact Hx.
Qed.
Lemma topo_ok g : (forall a b, In a (g_nodes g) -> In b (g_callees g a) -> In b (g_nodes g)) ->
  match ReverseTopoSort g with
  | Ok s => NoDup s /\ ordered g s /\ forall x, In x s <-> In x (g_nodes g)
  | Abort => exists a, In a (g_nodes g) /\ plus g a a
  | UB => False
  end.
Proof.
  intros G. unfold ReverseTopoSort.
  assert (T0 : TInv g [] (TvState [] [] [])).
  { constructor; cbn [tv_pre tv_post tv_sorted In]; try (intros; tauto); try constructor.
    intros l1 x l2 E. destruct l1; discriminate. }
  assert (U0 : (unpre g (TvState [] [] []) < S (length (g_nodes g)))%nat).
  { unfold unpre. clear. induction (g_nodes g) as [|y l IH]; cbn [filter tv_pre mem negb length] in *; lia. }
  pose proof (tv_loop_ok g [] (S (length (g_nodes g))) (g_nodes g) (TvState [] [] [])) as L.
  specialize (L ltac:(intros c s Hc Ts Us; apply TV_ok; auto; intros a []) T0 U0).
  destruct (tv_loop (TopoVisit (S (length (g_nodes g))) g) (g_nodes g) (TvState [] [] [])) as [st| |]; cbn [obind]; [|exact L|exact L].
  destruct L as [T [A _]]. destruct T as [B1 B2 B3 B4 B5 B6]. split; [exact B4|]. split; [exact B5|].
  intros x. split; [auto|]. intros Hx. apply B3. auto.
Qed.

(** An ordered list leaves no loop. *)
Lemma ordered_reaches g s : (forall a b, In a (g_nodes g) -> In b (g_callees g a) -> In b (g_nodes g)) ->
  NoDup s -> ordered g s -> (forall x, In x s <-> In x (g_nodes g)) ->
  forall a b, reaches g a b -> forall l1 l2, s = l1 ++ a :: l2 -> In b (l1 ++ [a]).
Proof.
  intros G ND O Hs a b R. apply clos_rt_rt1n in R. induction R as [a|a c b Hac R IH]; intros l1 l2 E.
  - apply in_app_iff. right. left. reflexivity.
  - pose proof (O l1 a l2 E c Hac) as Hc. apply in_split in Hc as [k1 [k2 Ek]].
    specialize (IH k1 (k2 ++ a :: l2)). rewrite E, Ek, <- app_assoc in IH. specialize (IH eq_refl).
    rewrite Ek. rewrite <- app_assoc. apply in_app_iff in IH as [H|[<-|[]]]; apply in_app_iff; [left; exact H|right; left; reflexivity].
Qed.
Lemma ordered_acyclic g s : (forall a b, In a (g_nodes g) -> In b (g_callees g a) -> In b (g_nodes g)) ->
  NoDup s -> ordered g s -> (forall x, In x s <-> In x (g_nodes g)) -> forall a, In a (g_nodes g) -> plus g a a -> False.
Proof.
  intros G ND O Hs a Ha [c [Hc R]]. apply Hs, in_split in Ha as [l1 [l2 E]].
  pose proof (O l1 a l2 E c Hc) as Hcl. apply in_split in Hcl as [k1 [k2 Ek]].
  pose proof (ordered_reaches g s G ND O Hs c a R k1 (k2 ++ a :: l2)) as Q. rewrite E, Ek, <- app_assoc in Q. specialize (Q eq_refl).
  rewrite E in ND. apply NoDup_remove_2 in ND. apply ND, in_app_iff. left. rewrite Ek. apply in_app_iff in Q as [Q|[->|[]]].
  - apply in_app_iff. left. exact Q.
  - apply in_app_iff. right. left. reflexivity.
Qed.
