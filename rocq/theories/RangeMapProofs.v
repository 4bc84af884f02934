(** Proofs about the range map model. *)
From Verif Require Import Base RangeMapModel.

Section RM.
Context {T : Type}.
Implicit Types (m p q ip pre : list (rentry T)) (e : rentry T).

(** sorted, non-empty, disjoint ranges starting at [b] or later *)
Fixpoint wfb (b : Z) m : Prop :=
  match m with
  | [] => True
  | e :: m' => b <= rlo e < rhi e /\ wfb (rhi e) m'
  end.

Definition inr e (a : Z) : bool := (rlo e <=? a) && (a <? rhi e).

Fixpoint lk m (a : Z) : option (rentry T) :=
  match m with
  | [] => None
  | e :: m' => if inr e a then Some e else lk m' a
  end.

Lemma lk_app p q a :
  lk (p ++ q) a = match lk p a with Some e => Some e | None => lk q a end.
Proof. induction p as [|x p IH]; cbn; [auto|]. destruct (inr x a); auto. Qed.

Lemma wfb_weaken b b' m : b' <= b -> wfb b m -> wfb b' m.
Proof. destruct m; cbn; intuition lia. Qed.

Lemma lk_below b m a : wfb b m -> a < b -> lk m a = None.
Proof.
  revert b; induction m as [|e m IH]; cbn; intros b H L; auto.
  unfold inr. destruct (rlo e <=? a) eqn:E; [lia|]. cbn.
  apply (IH (rhi e)); intuition lia.
Qed.

Lemma wfb_Forall b m : wfb b m -> Forall (fun e => b <= rlo e /\ rlo e < rhi e) m.
Proof.
  revert b; induction m as [|e m IH]; cbn; intros b H; constructor.
  - lia.
  - destruct H as [H1 H2]. specialize (IH _ H2). eapply Forall_impl; [|exact IH].
    cbn; intros; lia.
Qed.

Lemma wfb_app b p q :
  wfb b (p ++ q) <-> wfb b p /\ exists c, b <= c /\ wfb c q /\ Forall (fun e => rhi e <= c) p.
Proof.
  revert b; induction p as [|e p IH]; cbn; intros b; split.
  - intros H; split; auto. exists b; intuition.
  - intros [_ (c & L & H & _)]. eapply wfb_weaken; eauto.
  - intros [H1 H2]. apply IH in H2. destruct H2 as [H2 (c & Hc & Hq & Hp)].
    split; [auto|]. exists c; repeat split; auto; try lia.
  - intros [[H1 H2] (c & Hc & Hq & Hp)]. split; auto.
    apply IH. split; auto. inversion Hp; subst. exists c; auto.
Qed.

Lemma lower_bound_spec m low p s b :
  wfb b m -> lower_bound m low = (p, s) ->
  m = p ++ s /\ Forall (fun e => rlo e < low) p /\ Forall (fun e => low <= rlo e) s.
Proof.
  revert b p s; induction m as [|e m IH]; cbn; intros b p s W H.
  - inversion H; subst; auto.
  - destruct (rlo e <? low) eqn:E.
    + destruct (lower_bound m low) as [p' s'] eqn:L. inversion H; subst.
      destruct W as [W1 W2]. destruct (IH _ _ _ W2 eq_refl) as (A & B & C). subst.
      repeat split; auto. constructor; auto. lia.
    + inversion H; subst. repeat split; auto.
      destruct W as [W1 W2]. constructor; [lia|].
      apply wfb_Forall in W2. eapply Forall_impl; [|exact W2]. cbn; intros; lia.
Qed.

Lemma map_insert_mid p s e :
  Forall (fun x => rlo x < rlo e) p -> Forall (fun x => rlo e < rlo x) s ->
  map_insert (p ++ s) e = Some (p ++ e :: s).
Proof.
  intros P S; induction P as [|x p Hx P IH]; cbn.
  - destruct s as [|y s]; cbn; auto. inversion S; subst.
    destruct (rlo y <? rlo e) eqn:E; [lia|]. destruct (rlo e <? rlo y) eqn:E2; [auto|lia].
  - destruct (rlo x <? rlo e) eqn:E; [|lia]. rewrite IH; auto.
Qed.

(** The exact result of the gap-filling loop. *)
Lemma fill_gaps_ok ip : forall pre low high v,
  low <= high -> wfb low ip -> (low < high -> Forall (fun x => rlo x < low) pre) ->
  match fill_gaps (pre ++ ip) ip low high v with
  | Ok m' => exists q, m' = pre ++ q /\ wfb low q /\
       forall a, option_map rval (lk q a) =
         match lk ip a with
         | Some e => Some (rval e)
         | None => if (low <=? a) && (a <? high) then Some v else None
         end
  | Abort => exists e, In e ip /\ low < rlo e < high /\ high < rhi e /\ lk ip (rlo e - 1) = None
  | UB => False
  end.
Proof.
  induction ip as [|e ip IH]; intros pre low high v L W P.
  - cbn [fill_gaps]. destruct (low <? high) eqn:E.
    + rewrite map_insert_mid; [|cbn; apply P; lia|constructor].
      exists [((low, high), v)]. repeat split; cbn; auto; try lia.
      intros a. unfold inr; cbn. destruct ((low <=? a) && (a <? high)); auto.
    + exists []. rewrite !app_nil_r. repeat split; cbn; auto.
      intros a. destruct ((low <=? a) && (a <? high)) eqn:F; auto. lia.
  - cbn [fill_gaps]. cbn [wfb] in W. destruct W as [W1 W2].
    destruct (low <? high) eqn:E.
    2:{ exists (e :: ip). repeat split; cbn; auto; try lia. intros a.
        destruct (inr e a); cbn; auto. destruct (lk ip a); auto.
        destruct ((low <=? a) && (a <? high)) eqn:F; auto; lia. }
    specialize (P ltac:(lia)).
    assert (Ps : Forall (fun x => rhi e <= rlo x) ip).
    { apply wfb_Forall in W2. eapply Forall_impl; [|exact W2]. cbn; intros; lia. }
    destruct (low =? rlo e) eqn:E1.
    + (* no gap before e *)
      cbn [obind].
      replace (pre ++ e :: ip) with ((pre ++ [e]) ++ ip) by (rewrite <- app_assoc; auto).
      specialize (IH (pre ++ [e]) (Z.min high (rhi e)) high v ltac:(lia)).
      destruct (Z_lt_dec high (rhi e)) as [Hh|Hh].
      * replace (Z.min high (rhi e)) with high in * by lia.
        assert (F : forall mm ii, fill_gaps mm ii high high v = Ok mm).
        { intros mm ii. destruct ii; cbn [fill_gaps]; rewrite Z.ltb_irrefl; auto. }
        rewrite F. exists (e :: ip). rewrite <- app_assoc. repeat split; cbn; auto; try lia.
        intros a. unfold inr. destruct ((rlo e <=? a) && (a <? rhi e)) eqn:G; cbn; auto.
        destruct (lk ip a); auto. destruct ((low <=? a) && (a <? high)) eqn:F1; auto; lia.
      * replace (Z.min high (rhi e)) with (rhi e) in * by lia.
        specialize (IH W2).
        assert (Pre : rhi e < high -> Forall (fun x => rlo x < rhi e) (pre ++ [e])).
        { intros _. apply Forall_app; split; [eapply Forall_impl; [|exact P]; cbn; lia|].
          constructor; [lia|constructor]. }
        specialize (IH Pre).
        destruct (fill_gaps ((pre ++ [e]) ++ ip) ip (rhi e) high v) as [m'| |]; auto.
        -- destruct IH as (q & Hq & Wq & Lq). exists (e :: q).
           rewrite Hq, <- app_assoc. repeat split; cbn; auto; try lia.
           intros a. unfold inr. destruct ((rlo e <=? a) && (a <? rhi e)) eqn:G; cbn; auto.
           rewrite Lq. destruct (lk ip a); auto.
           destruct ((rhi e <=? a) && (a <? high)) eqn:F1;
             destruct ((low <=? a) && (a <? high)) eqn:F2; auto; lia.
        -- destruct IH as (x & Hx & H1 & H2 & H3). exists x.
           split; [right; auto|]. split; [lia|]. split; auto. cbn. unfold inr.
           destruct ((rlo e <=? rlo x - 1) && (rlo x - 1 <? rhi e)) eqn:G; auto.
           exfalso; lia.
    + (* a gap [low, min high (rlo e)) *)
      destruct ((Z.min high (rlo e) =? high) || (rhi e <=? high)) eqn:E2.
      * destruct (low <? Z.min high (rlo e)) eqn:E3; [|exfalso; lia].
        set (new := ((low, Z.min high (rlo e)), v) : rentry T).
        unfold checked_insert. rewrite map_insert_mid;
          [|unfold new; cbn; auto
           |unfold new; cbn; constructor; [lia|eapply Forall_impl; [|exact Ps]; cbn; lia]].
        cbn [obind].
        replace (pre ++ new :: e :: ip) with ((pre ++ [new; e]) ++ ip)
          by (rewrite <- app_assoc; auto).
        destruct (Z_le_dec high (rlo e)) as [Hh|Hh].
        -- replace (Z.min high (rhi e)) with high by lia.
           assert (F : forall mm ii, fill_gaps mm ii high high v = Ok mm).
           { intros mm ii. destruct ii; cbn [fill_gaps]; rewrite Z.ltb_irrefl; auto. }
           rewrite F. exists (new :: e :: ip). rewrite <- app_assoc.
           unfold new. replace (Z.min high (rlo e)) with high by lia.
           repeat split; cbn; auto; try lia.
           intros a. unfold inr; cbn.
           destruct ((low <=? a) && (a <? high)) eqn:G; cbn.
           ++ assert ((rlo e <=? a) && (a <? rhi e) = false) as -> by lia.
              rewrite (lk_below (rhi e) ip a) by (auto; lia). auto.
           ++ destruct ((rlo e <=? a) && (a <? rhi e)); auto.
        -- assert (rhi e <= high) by lia.
           replace (Z.min high (rhi e)) with (rhi e) by lia.
           specialize (IH (pre ++ [new; e]) (rhi e) high v ltac:(lia) W2).
           assert (Pre : rhi e < high -> Forall (fun x => rlo x < rhi e) (pre ++ [new; e])).
           { intros _. apply Forall_app; split; [eapply Forall_impl; [|exact P]; cbn; lia|].
             unfold new. constructor; [cbn; lia|constructor; [lia|constructor]]. }
           specialize (IH Pre).
           destruct (fill_gaps ((pre ++ [new; e]) ++ ip) ip (rhi e) high v) as [m'| |]; auto.
           ++ destruct IH as (q & Hq & Wq & Lq). exists (new :: e :: q).
              rewrite Hq, <- app_assoc. unfold new.
              replace (Z.min high (rlo e)) with (rlo e) in * by lia.
              repeat split; cbn; auto; try lia.
              intros a. unfold inr; cbn.
              destruct ((low <=? a) && (a <? rlo e)) eqn:G; cbn.
              ** assert ((rlo e <=? a) && (a <? rhi e) = false) as -> by lia.
                 rewrite (lk_below (rhi e) ip a) by (auto; lia).
                 assert ((low <=? a) && (a <? high) = true) as -> by lia. auto.
              ** destruct ((rlo e <=? a) && (a <? rhi e)) eqn:G2; auto.
                 rewrite Lq. destruct (lk ip a); auto.
                 destruct ((rhi e <=? a) && (a <? high)) eqn:F1;
                   destruct ((low <=? a) && (a <? high)) eqn:F2; auto; lia.
           ++ destruct IH as (x & Hx & H1 & H2 & H3). exists x.
              split; [right; auto|]. split; [lia|]. split; auto. cbn. unfold inr.
              destruct ((rlo e <=? rlo x - 1) && (rlo x - 1 <? rhi e)) eqn:G; auto.
              exfalso; lia.
      * cbn [obind]. exists e. split; [left; auto|]. split; [lia|]. split; [lia|].
        cbn. unfold inr. assert ((rlo e <=? rlo e - 1) && (rlo e - 1 <? rhi e) = false) as -> by lia.
        apply (lk_below (rhi e)); auto; lia.
Qed.

Lemma fill_gaps_abort ip : forall pre low high v e,
  low <= high -> wfb low ip -> (low < high -> Forall (fun x => rlo x < low) pre) ->
  In e ip -> low < rlo e < high -> high < rhi e -> lk ip (rlo e - 1) = None ->
  fill_gaps (pre ++ ip) ip low high v = Abort.
Proof.
  intros pre low high v e L W P I1 I2 I3 I4.
  revert pre low L W P I2. induction ip as [|x ip IH]; intros pre low L W P I2; [contradiction|].
  cbn [fill_gaps]. cbn [wfb] in W. destruct W as [W1 W2].
  assert (low <? high = true) as -> by lia. specialize (P ltac:(lia)).
  destruct I1 as [->|I1].
  - assert (low =? rlo e = false) as -> by lia.
    assert ((Z.min high (rlo e) =? high) || (rhi e <=? high) = false) as -> by lia. auto.
  - pose proof (wfb_Forall _ _ W2) as F. rewrite Forall_forall in F.
    pose proof (F e I1) as F1. cbn in F1.
    cbn in I4. unfold inr in I4.
    assert (N : rhi x < rlo e).
    { destruct ((rlo x <=? rlo e - 1) && (rlo e - 1 <? rhi x)) eqn:G; [discriminate|lia]. }
    destruct ((rlo x <=? rlo e - 1) && (rlo e - 1 <? rhi x)) eqn:G; [discriminate|].
    specialize (IH I1 I4).
    replace (Z.min high (rhi x)) with (rhi x) by lia.
    destruct (low =? rlo x) eqn:E1.
    + cbn [obind]. replace (pre ++ x :: ip) with ((pre ++ [x]) ++ ip) by (rewrite <- app_assoc; auto).
      apply IH; auto; try lia. intros _. apply Forall_app; split.
      * eapply Forall_impl; [|exact P]; cbn; lia.
      * constructor; [lia|constructor].
    + assert ((Z.min high (rlo x) =? high) || (rhi x <=? high) = true) as -> by lia.
      assert (low <? Z.min high (rlo x) = true) as -> by lia.
      set (new := ((low, Z.min high (rlo x)), v) : rentry T).
      unfold checked_insert. rewrite map_insert_mid;
        [|unfold new; cbn; auto
         |unfold new; cbn; constructor; [lia|eapply Forall_impl; [|apply wfb_Forall in W2; exact W2]; cbn; lia]].
      cbn [obind].
      replace (pre ++ new :: x :: ip) with ((pre ++ [new; x]) ++ ip)
        by (rewrite <- app_assoc; auto).
      apply IH; auto; try lia. intros _. apply Forall_app; split.
      * eapply Forall_impl; [|exact P]; cbn; lia.
      * unfold new. constructor; [cbn; lia|constructor; [lia|constructor]].
Qed.

Lemma wfb_In b m e : wfb b m -> In e m -> b <= rlo e < rhi e.
Proof. intros W I. apply wfb_Forall in W. rewrite Forall_forall in W. apply W in I. lia. Qed.

Lemma lk_Some m a e : lk m a = Some e -> In e m /\ rlo e <= a < rhi e.
Proof.
  induction m as [|x m IH]; cbn; [discriminate|].
  unfold inr. destruct ((rlo x <=? a) && (a <? rhi x)) eqn:G; intros H.
  - inversion H; subst. split; auto; lia.
  - apply IH in H. intuition.
Qed.

Lemma lk_In b m a e : wfb b m -> In e m -> rlo e <= a < rhi e -> lk m a = Some e.
Proof.
  revert b. induction m as [|x m IH]; cbn; intros b W I R; [contradiction|].
  destruct W as [W1 W2]. destruct I as [->|I].
  - unfold inr. assert ((rlo e <=? a) && (a <? rhi e) = true) as -> by lia. auto.
  - pose proof (wfb_In _ _ _ W2 I). unfold inr.
    assert ((rlo x <=? a) && (a <? rhi x) = false) as -> by lia. eapply IH; eauto.
Qed.

Lemma Find_lk b m a : wfb b m -> Find m a = lk m a.
Proof.
  intros W. unfold Find. destruct (lower_bound m a) as [pre ip] eqn:E.
  destruct (lower_bound_spec _ _ _ _ _ W E) as (-> & P & S).
  apply wfb_app in W. destruct W as [Wp (c & Hc & Wi & Pc)].
  rewrite lk_app.
  assert (B : match rev pre with [] => None | p :: _ => if a <? rhi p then Some p else None end = lk pre a).
  { destruct (rev pre) as [|p r] eqn:R.
    - apply (f_equal (@rev _)) in R. rewrite rev_involutive in R. subst; auto.
    - apply (f_equal (@rev _)) in R. rewrite rev_involutive in R. cbn in R. subst pre.
      rewrite lk_app. apply wfb_app in Wp. destruct Wp as [Wr (d & Hd & Wd & Rd)].
      cbn in Wd. apply Forall_app in P. destruct P as [P1 P2]. inversion P2; subst.
      assert (lk (rev r) a = None) as ->.
      { destruct (lk (rev r) a) eqn:K; auto. apply lk_Some in K. destruct K as [K1 K2].
        rewrite Forall_forall in Rd. apply Rd in K1. lia. }
      cbn. unfold inr. assert (rlo p <=? a = true) as -> by lia. cbn.
      destruct (a <? rhi p); auto. }
  rewrite B.
  destruct ip as [|e ip].
  - cbn. destruct (lk pre a); auto.
  - inversion S; subst. cbn. cbn in Wi. unfold inr.
    destruct (rlo e =? a) eqn:G.
    + assert (lk pre a = None) as ->.
      { destruct (lk pre a) eqn:K; auto. apply lk_Some in K. destruct K as [K1 K2].
        rewrite Forall_forall in Pc. apply Pc in K1. lia. }
      assert (rlo e <=? a = true) as -> by lia. cbn.
      assert (a <? rhi e = true) as -> by lia. auto.
    + assert (rlo e <=? a = false) as -> by lia. cbn.
      destruct (lk pre a) eqn:K; auto.
      symmetry. apply (lk_below (rhi e)); [tauto|lia].
Qed.

(** strict containment in one stored range *)
Definition inside m low high : Prop :=
  exists e, In e m /\ rlo e <= low /\ high <= rhi e /\ (rlo e <> low \/ rhi e <> high).

Definition bad_overlap m low high : Prop :=
  exists e, In e m /\
    ((rlo e < low < rhi e /\ rhi e < high) \/
     (low < rlo e < high /\ high < rhi e /\ lk m (rlo e - 1) = None)).

Lemma strictly_contains_true (o i : Z * Z) :
  strictly_contains o i = true <->
  fst o <= fst i /\ snd i <= snd o /\ (fst o <> fst i \/ snd o <> snd i).
Proof. unfold strictly_contains. lia. Qed.

Lemma SplitRange_ok before s after low high v b :
  wfb b (before ++ s :: after) -> rlo s <= low -> high <= rhi s -> low < high ->
  (rlo s <> low \/ rhi s <> high) ->
  exists m', SplitRange before s after low high v = Ok m' /\ wfb b m' /\
    forall a, option_map rval (lk m' a) =
      if (low <=? a) && (a <? high) then Some v
      else option_map rval (lk (before ++ s :: after) a).
Proof.
  intros W A B C D. unfold SplitRange.
  apply wfb_app in W. destruct W as [Wb (c & Hc & Wc & Pc)]. cbn in Wc. destruct Wc as [Ws Wa].
  assert (Pb : Forall (fun x => rlo x < rlo s) before).
  { pose proof (wfb_Forall _ _ Wb) as F. rewrite Forall_forall in *. intros x Hx.
    pose proof (F x Hx). pose proof (Pc x Hx). cbn in *. lia. }
  assert (Pa : Forall (fun x => rhi s <= rlo x) after).
  { apply wfb_Forall in Wa. eapply Forall_impl; [|exact Wa]. cbn; intros; lia. }
  assert (M1 : (if low =? rlo s then Ok (before ++ after)
     else checked_insert (before ++ after) ((rlo s, low), rval s)) =
     Ok ((before ++ (if low =? rlo s then [] else [((rlo s, low), rval s)])) ++ after)).
  { destruct (low =? rlo s) eqn:E.
    - rewrite app_nil_r; auto.
    - unfold checked_insert. rewrite map_insert_mid.
      + rewrite <- app_assoc; auto.
      + cbn; auto.
      + cbn. eapply Forall_impl; [|exact Pa]; cbn; lia. }
  rewrite M1. cbn [obind].
  set (l := (if low =? rlo s then [] else [((rlo s, low), rval s)]) : list (rentry T)).
  unfold checked_insert at 1. rewrite map_insert_mid.
  2:{ cbn. apply Forall_app; split.
      - eapply Forall_impl; [|exact Pb]; cbn; lia.
      - unfold l. destruct (low =? rlo s) eqn:E; constructor; [cbn; lia|constructor]. }
  2:{ cbn. eapply Forall_impl; [|exact Pa]; cbn; lia. }
  cbn [obind].
  set (r := (if high =? rhi s then [] else [((high, rhi s), rval s)]) : list (rentry T)).
  assert (M2 : (if high =? rhi s then Ok ((before ++ l) ++ ((low, high), v) :: after)
     else checked_insert ((before ++ l) ++ ((low, high), v) :: after) ((high, rhi s), rval s)) =
     Ok (before ++ l ++ ((low, high), v) :: r ++ after)).
  { unfold r. destruct (high =? rhi s) eqn:E.
    - rewrite <- app_assoc; auto.
    - unfold checked_insert.
      replace ((before ++ l) ++ ((low, high), v) :: after)
        with ((before ++ l ++ [((low, high), v)]) ++ after)
        by (rewrite <- !app_assoc; auto).
      rewrite map_insert_mid.
      + rewrite <- !app_assoc; auto.
      + cbn. apply Forall_app; split; [eapply Forall_impl; [|exact Pb]; cbn; lia|].
        apply Forall_app; split.
        * unfold l. destruct (low =? rlo s) eqn:E2; constructor; [cbn; lia|constructor].
        * constructor; [cbn; lia|constructor].
      + cbn. eapply Forall_impl; [|exact Pa]; cbn; lia. }
  eexists; split; [exact M2|]. split.
  - apply wfb_app. split; auto. exists c. split; auto. split; auto.
    unfold l, r. destruct (low =? rlo s) eqn:E1; destruct (high =? rhi s) eqn:E2; cbn;
      repeat split; try lia; try (eapply wfb_weaken; [|exact Wa]; lia).
  - intros a. rewrite !lk_app.
    destruct (lk before a) as [x|] eqn:K.
    + apply lk_Some in K. destruct K as [K1 K2]. rewrite Forall_forall in Pc.
      apply Pc in K1. assert ((low <=? a) && (a <? high) = false) as -> by lia. auto.
    + unfold l, r. destruct (low =? rlo s) eqn:E1; destruct (high =? rhi s) eqn:E2; cbn;
        unfold inr; cbn;
        repeat match goal with |- context [if ?b then _ else _] => destruct b eqn:? end;
        cbn; auto; try lia.
Qed.

Lemma rev_eq_nil {A} (l : list A) : rev l = [] -> l = [].
Proof. destruct l; auto. cbn. intros H. apply app_eq_nil in H. destruct H; discriminate. Qed.

Theorem InsertRange_spec m b low high v :
  wfb b m -> b <= low -> low < high ->
  (inside m low high ->
     exists m', InsertRange m low high v = Ok m' /\ wfb b m' /\
       forall a, option_map rval (lk m' a) =
         if (low <=? a) && (a <? high) then Some v else option_map rval (lk m a)) /\
  (~ inside m low high -> ~ bad_overlap m low high ->
     exists m', InsertRange m low high v = Ok m' /\ wfb b m' /\
       forall a, option_map rval (lk m' a) =
         match lk m a with
         | Some e => Some (rval e)
         | None => if (low <=? a) && (a <? high) then Some v else None
         end) /\
  (~ inside m low high -> bad_overlap m low high ->
     InsertRange m low high v = Abort).
Proof.
  intros W Hb L. unfold InsertRange.
  assert (low =? high = false) as -> by lia.
  destruct (lower_bound m low) as [pre ip] eqn:E.
  destruct (lower_bound_spec _ _ _ _ _ W E) as (-> & P & S). clear E.
  pose proof W as W0. apply wfb_app in W. destruct W as [Wp (c & Hc & Wi & Pc)].
  set (at_ip := match ip with
      | e :: ip' =>
          if strictly_contains (fst e) (low, high)
          then SplitRange pre e ip' low high v
          else fill_gaps (pre ++ ip) ip low high v
      | [] => fill_gaps (pre ++ ip) ip low high v
      end).
  assert (Wil : wfb low ip).
  { destruct ip; cbn in *; auto. inversion S; subst. intuition lia. }
  (* the part after the predecessor test, under: all of pre ends by low *)
  assert (AT : Forall (fun e => rhi e <= low) pre ->
    (inside (pre ++ ip) low high ->
       exists m', at_ip = Ok m' /\ wfb b m' /\
       forall a, option_map rval (lk m' a) =
         if (low <=? a) && (a <? high) then Some v else option_map rval (lk (pre ++ ip) a)) /\
    (~ inside (pre ++ ip) low high -> ~ bad_overlap (pre ++ ip) low high ->
       exists m', at_ip = Ok m' /\ wfb b m' /\
       forall a, option_map rval (lk m' a) =
         match lk (pre ++ ip) a with
         | Some e => Some (rval e)
         | None => if (low <=? a) && (a <? high) then Some v else None
         end) /\
    (~ inside (pre ++ ip) low high -> bad_overlap (pre ++ ip) low high -> at_ip = Abort)).
  { intros Pl.
    assert (Plk : forall a, low <= a -> lk pre a = None).
    { intros a Ha. destruct (lk pre a) eqn:K; auto. apply lk_Some in K. destruct K as [K1 K2].
      rewrite Forall_forall in Pl. apply Pl in K1. lia. }
    destruct (match ip with e :: _ => strictly_contains (fst e) (low, high) | [] => false end) eqn:SC.
    - destruct ip as [|e ip']; [discriminate|]. subst at_ip. cbn iota beta. rewrite SC.
      apply strictly_contains_true in SC. change (fst (fst e)) with (rlo e) in SC.
      change (snd (fst e)) with (rhi e) in SC. cbn in SC.
      assert (I : inside (pre ++ e :: ip') low high).
      { exists e. split; [apply in_app_iff; right; left; auto|]. intuition. }
      split; [|split; intros; tauto].
      intros _. destruct (SplitRange_ok pre e ip' low high v b W0) as (m' & H1 & H2 & H3); try tauto.
      exists m'; auto.
    - assert (at_ip = fill_gaps (pre ++ ip) ip low high v) as ->.
      { subst at_ip. destruct ip; auto. rewrite SC; auto. }
      assert (NI : ~ inside (pre ++ ip) low high).
      { intros (x & I1 & I2 & I3 & I4). apply in_app_iff in I1. destruct I1 as [I1|I1].
        - rewrite Forall_forall in Pl. apply Pl in I1. lia.
        - destruct ip as [|y ip']; [contradiction|].
          destruct I1 as [->|I1].
          + assert (strictly_contains (fst x) (low, high) = true); [|congruence].
            apply strictly_contains_true. change (fst (fst x)) with (rlo x).
            change (snd (fst x)) with (rhi x). cbn. intuition.
          + cbn in Wil. destruct Wil as [Wy Wr]. pose proof (wfb_In _ _ _ Wr I1). lia. }
      split; [tauto|]. 
      assert (Pl' : low < high -> Forall (fun x => rlo x < low) pre) by auto.
      split.
      + intros _ NB.
        pose proof (fill_gaps_ok ip pre low high v ltac:(lia) Wil Pl') as F.
        destruct (fill_gaps (pre ++ ip) ip low high v) as [m'| |].
        * destruct F as (q & -> & Wq & Lq). eexists; split; [reflexivity|]. split.
          -- apply wfb_app. split; auto. exists low. auto.
          -- intros a. rewrite !lk_app. destruct (lk pre a) eqn:K; auto.
        * destruct F as (e & I1 & I2 & I3 & I4). exfalso. apply NB.
          exists e. split; [apply in_app_iff; auto|]. right. split; auto. split; auto.
          rewrite lk_app, Plk by lia. auto.
        * contradiction.
      + intros _ (e & I1 & [I2|(I2 & I3 & I4)]).
        * exfalso. apply in_app_iff in I1. destruct I1 as [I1|I1].
          -- rewrite Forall_forall in Pl. apply Pl in I1. lia.
          -- pose proof (wfb_In _ _ _ Wil I1). lia.
        * apply fill_gaps_abort with (e := e); auto; try lia.
          -- apply in_app_iff in I1. destruct I1 as [I1|I1]; auto.
             rewrite Forall_forall in P. apply P in I1. lia.
          -- rewrite lk_app, Plk in I4 by lia. auto. }
  destruct (rev pre) as [|p rest] eqn:R.
  - apply rev_eq_nil in R. subst pre. apply AT. constructor.
  - apply (f_equal (@rev _)) in R. rewrite rev_involutive in R. cbn in R.
    assert (Ip : In p pre) by (rewrite R; apply in_app_iff; right; left; auto).
    assert (Plp : rlo p < low) by (rewrite Forall_forall in P; auto).
    destruct (strictly_contains (fst p) (low, high)) eqn:SC.
    + apply strictly_contains_true in SC. change (fst (fst p)) with (rlo p) in SC.
      change (snd (fst p)) with (rhi p) in SC. cbn in SC.
      assert (I : inside (pre ++ ip) low high).
      { exists p. split; [apply in_app_iff; auto|]. intuition. }
      split; [|split; intros; tauto].
      intros _. assert (EQ : pre ++ ip = rev rest ++ p :: ip) by (rewrite R, <- app_assoc; auto).
      rewrite EQ in *.
      destruct (SplitRange_ok (rev rest) p ip low high v b W0) as (m' & H1 & H2 & H3); try tauto.
      exists m'; auto.
    + assert (Prest : Forall (fun x => rhi x <= rlo p) (rev rest)).
      { rewrite R in Wp. apply wfb_app in Wp. destruct Wp as [_ (d & _ & Wd & Pd)]. cbn in Wd.
        eapply Forall_impl; [|exact Pd]. cbn; lia. }
      destruct (rhi p <=? low) eqn:Q.
      * apply AT. rewrite R. apply Forall_app; split.
        -- eapply Forall_impl; [|exact Prest]; cbn; lia.
        -- constructor; [lia|constructor].
      * assert (NC : rhi p < high).
        { destruct (Z_lt_dec (rhi p) high); auto. exfalso.
          assert (strictly_contains (fst p) (low, high) = true); [|congruence].
          apply strictly_contains_true. change (fst (fst p)) with (rlo p).
          change (snd (fst p)) with (rhi p). cbn. lia. }
        assert (BO : bad_overlap (pre ++ ip) low high).
        { exists p. split; [apply in_app_iff; auto|]. left. lia. }
        assert (NI : ~ inside (pre ++ ip) low high).
        { intros (x & I1 & I2 & I3 & I4). apply in_app_iff in I1.
          assert (In x (rev rest) \/ x = p \/ In x ip) as [I|[I|I]].
          { destruct I1 as [I1|I1]; auto. rewrite R in I1. apply in_app_iff in I1.
            destruct I1 as [I1|[I1|[]]]; auto. }
          - rewrite Forall_forall in Prest. apply Prest in I. lia.
          - subst; lia.
          - rewrite Forall_forall in Pc. apply Pc in Ip.
            pose proof (wfb_In _ _ _ Wi I). lia. }
        split; [tauto|]. split; [tauto|]. auto.
Qed.

Lemma exists_In_dec (P : rentry T -> Prop) m :
  (forall e, P e \/ ~ P e) ->
  (exists e, In e m /\ P e) \/ ~ (exists e, In e m /\ P e).
Proof.
  intros D. induction m as [|x m IH].
  - right. intros (e & [] & _).
  - destruct IH as [(e & I & R)|N].
    + left. exists e. split; [right; auto|auto].
    + destruct (D x) as [Y|Y].
      * left. exists x. split; [left|]; auto.
      * right. intros (e & [->|I] & R); [auto|]. apply N. exists e; auto.
Qed.

Lemma inside_dec m low high : inside m low high \/ ~ inside m low high.
Proof. apply exists_In_dec. intros e. lia. Qed.

Lemma bad_overlap_dec m low high : bad_overlap m low high \/ ~ bad_overlap m low high.
Proof.
  apply exists_In_dec. intros e. destruct (lk m (rlo e - 1)) eqn:E.
  - destruct (((rlo e <? low) && (low <? rhi e) && (rhi e <? high))) eqn:F.
    + left; left; lia.
    + right. intros [H|(_ & _ & H)]; [lia|discriminate].
  - destruct (((rlo e <? low) && (low <? rhi e) && (rhi e <? high))
              || ((low <? rlo e) && (rlo e <? high) && (high <? rhi e))) eqn:F.
    + left. apply orb_true_iff in F. destruct F as [F|F]; [left; lia|].
      right. split; [lia|]. split; [lia|reflexivity].
    + right. intros [H|(H1 & H2 & _)]; lia.
Qed.
End RM.
