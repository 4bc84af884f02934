(** Reading a whole AutoFDO file. *)
From Verif Require Import Base GcovModel GcovSpec GcovProofs SrcOffsetModel SrcOffsetProofs SymbolModel SymbolSpec
  SymbolProofs AttribProofs AfdoModel AfdoSpec AfdoProofs AfdoReadProofs AfdoEffProofs.

(** ** timestamps *)
Lemma osn_ts base conv count k outer : (forall s, s_ts (k s) = s_ts s) -> forall s,
  s_ts (on_stack_node base conv count k outer s) = s_ts s.
Proof.
  intros K. assert (A : forall s, s_ts (add_total count s) = s_ts s) by (intros []; reflexivity).
  destruct outer as [|i [|j rest]]; intros s; cbn [on_stack_node]; try (rewrite K; apply A).
  destruct (conv && si_invalid i); [rewrite K; apply A|]. destruct s; reflexivity.
Qed.
Lemma set_pos_ts l f s : s_ts (set_pos l f s) = s_ts s. Proof. destruct s; reflexivity. Qed.
Lemma eff_pos_ts base orig n stack ps : forall cur, s_ts (eff_pos base orig n stack ps cur) = s_ts cur.
Proof.
  induction ps as [|[l i] ps IH]; intros cur; cbn [eff_pos fold_left]; auto.
  unfold eff_pos in IH. rewrite IH.
  assert (T : forall ts cur, s_ts (eff_targets base orig stack (entry n l) ts cur) = s_ts cur).
  { induction ts as [|[t c] ts IHt]; intros x; cbn [eff_targets fold_left]; auto.
    unfold eff_targets in IHt. rewrite IHt. apply osn_ts. intros; apply set_pos_ts. }
  rewrite T. apply osn_ts. intros; apply set_pos_ts.
Qed.
Lemma eff_sym_ts base orig s : forall n stack cur, s_ts (eff_sym base orig n stack s cur) = s_ts cur.
Proof.
  induction s as [h tot ts pos calls IH] using symbol_ind'. intros n stack cur. rewrite eff_sym_eq.
  cbn [s_pos s_calls]. rewrite <- (eff_pos_ts base orig n stack pos cur).
  generalize (eff_pos base orig n stack pos cur) as x. unfold eff_calls.
  assert (G : forall cs, (forall k c, In (k, c) cs -> In (k, c) calls) -> forall x,
    s_ts (fold_left (fun cur '(k, c) => eff_sym base orig (snd k) (entry n (fst k) :: stack) c cur) cs x) = s_ts x).
  { induction cs as [|[k c] cs IHcs]; intros Incl x; cbn [fold_left]; auto.
    rewrite IHcs by (intros; apply Incl; right; auto). apply (IH k c). apply Incl. left; auto. }
  intros x. apply G. auto.
Qed.

(** ** names *)
Lemma ends_app n suf : ends n suf = true -> exists pre, n = pre ++ suf.
Proof.
  unfold ends. destruct (name_eqb_spec (skipn (length n - length suf) n) suf) as [E|]; [|discriminate].
  intros _. exists (firstn (length n - length suf) n).
  transitivity (firstn (length n - length suf) n ++ skipn (length n - length suf) n); [symmetry; apply firstn_skipn|].
  f_equal. exact E.
Qed.
Lemma plain_rewrite n : plain n -> rewrite_name n = n.
Proof.
  intros H. unfold rewrite_name.
  assert (E : forall suf, In suf special_suffixes -> ends n suf = false).
  { intros suf I. destruct (ends n suf) eqn:E; auto. apply ends_app in E. destruct E as [pre ->].
    exfalso. exact (H pre suf I eq_refl). }
  unfold special_suffixes in E. cbn [In] in E.
  rewrite (E D4Ev), (E C4Ev), (E C4EPKc), (E C4EPKcRKS2_) by (unfold D4Ev, C4Ev, C4EPKc, C4EPKcRKS2_; auto).
  rewrite !andb_false_r. reflexivity.
Qed.
Lemma plain_nil : plain [].
Proof.
  intros pre suf I E. symmetry in E. apply app_eq_nil in E. destruct E as [-> ->].
  unfold special_suffixes in I. cbn in I. intuition discriminate.
Qed.

(** ** locations *)
Lemma loc_fits_ok base l : loc_fits base l -> loc_ok base l.
Proof.
  intros (line & disc & Hl & Hd & Hb & ->) n.
  assert (Ul : is_u32 line) by (unfold is_u32; lia). assert (Ud : is_u32 disc) by (unfold is_u32; lia).
  destruct (reader_eq line disc Ul Ud) as [A B].
  unfold si_offset, entry, stack_entry. cbn [si_line si_start si_disc]. rewrite A, B.
  change (2 ^ 16) with 65536 in *.
  rewrite (Z.mod_small line) by lia. rewrite (Z.div_small disc), (Z.mod_small disc) by lia.
  change (Z.lor 0 disc) with disc. rewrite Hb, Z.sub_0_r.
  unfold u32. rewrite Z.mod_small by (unfold w32; lia). reflexivity.
Qed.

(** ** a profile that fits *)
Lemma fits_locs v base orig s : fits v base orig s -> sym_locs base s.
Proof.
  induction s as [h tot ts pos calls IH] using symbol_ind'. intros F.
  inversion F as [? ? ? ? ? Hh Hts Np Nc Hp Hc]; subst. constructor; auto.
  - apply Forall_forall. intros [l i] I. destruct (Hp l i I) as (A & B & _). cbn [fst snd].
    split; auto using loc_fits_ok.
  - intros [l n] c I. destruct (Hc l n c I) as (A & _ & _ & D). cbn [fst]. split; [auto using loc_fits_ok|].
    eapply IH; eauto.
Qed.

(** every function, callee and target name of a profile *)
Lemma traverse_names_fit v base orig s : fits v base orig s ->
  forall e n, In e (traverse s) -> In n (ev_names e) -> name_fits v n /\ plain n.
Proof.
  induction s as [h tot ts pos calls IH] using symbol_ind'. intros F e n I In'.
  inversion F as [? ? ? ? ? Hh Hts Np Nc Hp Hc]; subst. cbn [traverse] in I. destruct I as [<-|I].
  - cbn [ev_names s_pos] in In'. apply in_flat_map in In'. destruct In' as ([l i] & I1 & I2).
    apply in_map_iff in I2. destruct I2 as ([n' c] & <- & I2). destruct (Hp l i I1) as (_ & _ & _ & X).
    destruct (X n' c I2) as (A & B & _). auto.
  - apply in_flat_map in I. destruct I as ([[l k] c] & I1 & I2). destruct (Hc l k c I1) as (_ & A & B & D).
    cbn [In] in I2. destruct I2 as [<-|I2].
    + cbn [ev_names In] in In'. destruct In' as [<-|[]]. auto.
    + eapply IH; eauto.
Qed.

Definition node_small (s : symbol) : Prop :=
  zlen (s_pos s) < 2 ^ 32 /\ zlen (s_calls s) < 2 ^ 32 /\
  forall l i, In (l, i) (s_pos s) -> zlen (p_targets i) < 2 ^ 32.

Lemma fits_enc v base orig t s : fits v base orig s ->
  (forall e n, In e (traverse s) -> In n (ev_names e) -> In n t) ->
  (forall s', In (ENode s') (traverse s) -> node_small s') ->
  sym_enc t s.
Proof.
  induction s as [h tot ts pos calls IH] using symbol_ind'. intros F T Sm.
  inversion F as [? ? ? ? ? Hh Hts Np Nc Hp Hc]; subst.
  destruct (Sm (Sym h tot ts pos calls)) as (S1 & S2 & S3); [cbn; auto|]. cbn [s_pos s_calls] in *.
  constructor; auto.
  - split; auto. apply Forall_forall. intros [l i] I. cbn [snd].
    destruct (Hp l i I) as (_ & B & [_ C] & D). split; auto. split; [eapply S3; eauto|].
    apply Forall_forall. intros [n c] In'. cbn [fst snd]. split.
    + apply (T (ENode (Sym h tot ts pos calls))); [cbn; auto|].
      cbn [ev_names s_pos]. apply in_flat_map. exists (l, i). split; auto.
      apply in_map_iff. exists (n, c). auto.
    + rewrite Forall_forall in C. exact (C _ In').
  - intros [l n] c I. destruct (Hc l n c I) as (_ & _ & _ & D).
    assert (Sub : forall e, In e (ECall (l, n) :: traverse c) -> In e (traverse (Sym h tot ts pos calls))).
    { intros e Ie. cbn [traverse]. right. apply in_flat_map. exists (l, n, c). split; auto. }
    split.
    + apply (T (ECall (l, n))); [apply Sub; left; auto|]. cbn; auto.
    + eapply IH; eauto.
      * intros e n' Ie. apply T. apply Sub. right; auto.
      * intros s' Ie. apply Sm. apply Sub. right; auto.
Qed.

(** ** reading one top-level function *)
Lemma aget_AddSymbol n m a :
  aget name_eqb a (sm_names (AddSymbol [] n m)) =
  match aget name_eqb n (sm_names m) with
  | Some _ => aget name_eqb a (sm_names m)
  | None => if name_eqb a n then Some (length (sm_heap m)) else aget name_eqb a (sm_names m)
  end.
Proof.
  unfold AddSymbol. destruct (aget name_eqb n (sm_names m)) eqn:E; auto.
  cbn [fold_left sm_names]. rewrite aget_aset by apply name_eqb_spec. reflexivity.
Qed.
Lemma AddSymbol_find n m a : unshared m ->
  sm_find (AddSymbol [] n m) a = if name_eqb a n then Some (find_or_empty m n) else sm_find m a.
Proof.
  intros [B U]. unfold sm_find at 1. rewrite aget_AddSymbol. unfold find_or_empty, sm_find, AddSymbol.
  destruct (aget name_eqb n (sm_names m)) as [i|] eqn:E.
  - destruct (name_eqb_spec a n) as [->|D]; [|reflexivity]. rewrite E.
    specialize (B _ _ E). apply nth_error_Some in B. destruct (nth_error (sm_heap m) i); congruence.
  - cbn [sm_heap]. destruct (name_eqb_spec a n) as [->|D].
    + rewrite nth_error_app2, Nat.sub_diag by lia. reflexivity.
    + destruct (aget name_eqb a (sm_names m)) as [j|] eqn:F; [|reflexivity].
      rewrite nth_error_app1; auto. eauto.
Qed.
Lemma AddSymbol_unshared n m : unshared m -> unshared (AddSymbol [] n m).
Proof.
  intros [B U]. split.
  - intros a i. rewrite aget_AddSymbol. unfold AddSymbol.
    destruct (aget name_eqb n (sm_names m)) as [j|] eqn:E; [apply B|]. cbn [sm_heap].
    rewrite app_length. cbn [length]. destruct (name_eqb a n); intros H; [inversion H; subst; lia|].
    specialize (B _ _ H). lia.
  - intros a b i. rewrite !aget_AddSymbol. destruct (aget name_eqb n (sm_names m)) as [j|] eqn:E; [apply U|].
    destruct (name_eqb_spec a n) as [->|Da], (name_eqb_spec b n) as [->|Db]; auto.
    + intros H1 H2. inversion H1; subst. apply B in H2. lia.
    + intros H1 H2. inversion H2; subst. apply B in H1. lia.
    + apply U.
Qed.
Lemma unshared_same_object m a b s : unshared m -> sm_find m b = Some s ->
  same_object m a b = name_eqb a b.
Proof.
  intros [B U] F. unfold same_object, sm_find in *.
  destruct (aget name_eqb b (sm_names m)) as [j|] eqn:Eb; [|discriminate].
  destruct (name_eqb_spec a b) as [->|D].
  - rewrite Eb. apply Nat.eqb_refl.
  - destruct (aget name_eqb a (sm_names m)) as [i|] eqn:Ea; auto.
    destruct (Nat.eqb_spec i j) as [->|]; auto. exfalso. eauto.
Qed.
Lemma holds_unshared m0 top cur m : holds m0 top cur m -> unshared m0 -> unshared m.
Proof.
  intros H [B U]. destruct (holds_find _ _ _ _ H) as (_ & _ & N).
  assert (L : length (sm_heap m) = length (sm_heap m0)).
  { unfold holds, sm_update in H. destruct (aget name_eqb top (sm_names m0)); [|discriminate].
    destruct (nth_error (sm_heap m0) n); [|discriminate]. inversion H; subst. apply length_set_nth. }
  split; rewrite ?L, N; auto.
Qed.

Lemma path_of_top base n : path_of base n [] = [].
Proof. reflexivity. Qed.

Section Top.
  Variables (base : Z -> Z) (orig : name -> name) (version : Z) (force : bool) (t : list name).
  Hypothesis t_small : zlen t < 2 ^ 32.

  Definition set_ts ts (s : symbol) := match s with Sym h tot _ p cs => Sym h tot ts p cs end.
  Definition add_head hd (s : symbol) := match s with Sym h tot ts p cs => Sym (add64 h hd) (add64 tot 0) ts p cs end.
  Definition ts_read (s : symbol) := if 3 <=? version then s_ts s else 0.
  Definition taken (old : symbol) : bool := force || negb (0 <? s_total old).
  Definition after (old s : symbol) (n : name) : symbol :=
    if taken old then eff_sym base orig n [] s (add_head (s_head s) (set_ts (ts_read s) old))
    else set_ts (ts_read s) old.

  Lemma read_top fuel n s st m vs rest :
    (depth s <= fuel)%nat -> sym_enc t s -> In n t -> unshared m ->
    ready version st (evals version t (ETop n s) ++ flat_map (evals version t) (traverse s) ++ vs) rest ->
    exists st' m',
      read_symbol base orig version force t fuel [] true (st, m) = Ok (st', m') /\
      ready version st' vs rest /\ unshared m' /\
      forall a, sm_find m' a = if name_eqb a n then Some (after (find_or_empty m n) s n) else sm_find m a.
  Proof.
    intros D En In' Um R. destruct fuel as [|fuel]; [destruct s; cbn in D; lia|].
    destruct s as [h tot ts pos calls]. inversion En as [? ? ? ? ? Hh Hts Hp Lc Hc]; subst.
    set (s := Sym h tot ts pos calls) in *.
    cbn [evals s_head s_ts] in R. cbn [read_symbol]. cbn [app] in R.
    destruct (rd_counter _ _ _ _ _ R) as (st1 & E1 & R1); [exact Hh|].
    rewrite E1. cbn [obind andb].
    assert (X : exists st2, (if 3 <=? version then gcov_read_counter st1 else Ok (0, st1)) = Ok (ts_read s, st2) /\
              ready version st2 (VWord (ix t n) :: flat_map (evals version t) (traverse s) ++ vs) rest).
    { unfold ts_read. destruct (3 <=? version).
      - cbn [app] in R1. destruct (rd_counter _ _ _ _ _ R1) as (st2 & E2 & R2); [exact Hts|].
        exists st2. split; [exact E2|exact R2].
      - exists st1. split; [reflexivity|exact R1]. }
    destruct X as (st2 & -> & R2). cbn [obind].
    destruct (name_at_ix base orig version t t_small n In') as [Nn Bn].
    destruct (rd_word _ _ _ _ _ R2) as (st3 & E3 & R3); [exact Bn|]. rewrite E3. cbn [obind]. rewrite Nn. cbn [obind].
    set (old := find_or_empty m n).
    set (m1 := AddSymbol [] n m).
    pose proof (AddSymbol_unshared n m Um) as U1. fold m1 in U1.
    assert (F1 : sm_find m1 n = Some old).
    { unfold m1. rewrite AddSymbol_find by auto. destruct (name_eqb_spec n n); [reflexivity|congruence]. }
    assert (E : exists m2 cur, enter_top force n h (ts_read s) true m1 = Ok (negb (negb force && (0 <? s_total old)), m2)
       /\ holds m1 n cur m2 /\
       cur = if taken old then add_head h (set_ts (ts_read s) old) else set_ts (ts_read s) old).
    { unfold enter_top.
      assert (AddSymbol [] n m1 = m1) as ->.
      { unfold AddSymbol. unfold sm_find in F1. destruct (aget name_eqb n (sm_names m1)); [reflexivity|discriminate]. }
      destruct (holds_step m1 n old m1 (set_ts (ts_read s)) (holds_start _ _ _ F1)) as (m2 & A & B).
      unfold AddSymbolTimestamp. change (sm_update n _ m1) with (sm_update n (set_ts (ts_read s)) m1). rewrite A.
      cbn [obind]. destruct (holds_find _ _ _ _ B) as (_ & C & _). rewrite C.
      rewrite (unshared_same_object m1 n n old U1 F1).
      destruct (name_eqb_spec n n); [|congruence].
      assert (s_total (set_ts (ts_read s) old) = s_total old) as -> by (destruct old; reflexivity).
      unfold taken. destruct force; cbn [orb negb andb].
      - destruct (holds_step m1 n _ m2 (add_head h) B) as (m3 & A3 & B3).
        unfold AddSymbolEntryCount. change (sm_update n _ m2) with (sm_update n (add_head h) m2). rewrite A3.
        cbn [obind]. exists m3, (add_head h (set_ts (ts_read s) old)). auto.
      - destruct (0 <? s_total old); cbn [negb].
        + cbn [obind]. exists m2, (set_ts (ts_read s) old). auto.
        + destruct (holds_step m1 n _ m2 (add_head h) B) as (m3 & A3 & B3).
          unfold AddSymbolEntryCount. change (sm_update n _ m2) with (sm_update n (add_head h) m2). rewrite A3.
          cbn [obind]. exists m3, (add_head h (set_ts (ts_read s) old)). auto. }
    destruct E as (m2 & cur & Et & H2 & Ec).
    assert (Et' : enter_top force n h (ts_read s) true m = enter_top force n h (ts_read s) true m1).
    { unfold enter_top. assert (AddSymbol [] n m1 = m1) as ->; [|reflexivity].
      unfold AddSymbol at 1. unfold sm_find in F1. destruct (aget name_eqb n (sm_names m1)); [reflexivity|discriminate]. }
    set (upd := negb (negb force && (0 <? s_total old))) in *.
    destruct (read_body base orig version force t t_small m1 upd (S fuel) s n [] st3 m2 cur vs rest D En R3 H2)
      as (st4 & st' & m' & E4 & (st5 & E5 & X & Y & W)).
    rewrite E4. cbn [obind]. rewrite E5. cbn [obind].
    change (s_head s) with h. rewrite Et', Et. cbn [obind].
    rewrite !zlen_to_nat. cbn [Nat.pred] in X.
    exists st', m'. split; [exact X|]. split; [exact Y|].
    change (top_of n []) with n in W. split; [eapply holds_unshared; eauto|].
    intros a. destruct (holds_find _ _ _ _ W) as (_ & C & _). rewrite C.
    rewrite (unshared_same_object m1 a n old U1 F1). unfold m1. rewrite AddSymbol_find by auto.
    destruct (name_eqb_spec a n) as [->|Da]; [|reflexivity].
    f_equal. unfold after. rewrite Ec. unfold taken, upd. fold old.
    destruct force, (0 <? s_total old); reflexivity.
  Qed.

  (** ** the whole function section *)
  Lemma read_all fuel em : forall st m vs rest,
    (forall n s, In (n, s) em -> (depth s <= fuel)%nat /\ sym_enc t s /\ In n t) ->
    NoDup (map fst em) -> unshared m ->
    ready version st (flat_map (evals version t) (flat_map (fun '(n, s) => ETop n s :: traverse s) em) ++ vs) rest ->
    exists st' m',
      rep (length em) (read_symbol base orig version force t fuel [] true) (st, m) = Ok (st', m') /\
      ready version st' vs rest /\ unshared m' /\
      (forall a, ~ In a (map fst em) -> sm_find m' a = sm_find m a) /\
      (forall n s, In (n, s) em -> sm_find m' n = Some (after (find_or_empty m n) s n)).
  Proof.
    induction em as [|[n s] em IH]; intros st m vs rest H N U R.
    - exists st, m. cbn. repeat (split; auto). intros ? ? [].
    - cbn [length rep]. cbn [flat_map] in R. rewrite flat_map_app in R. cbn [flat_map] in R.
      rewrite <- !app_assoc in R.
      destruct (H n s (or_introl eq_refl)) as (D & En & It).
      destruct (read_top fuel n s st m _ rest D En It U R) as (st1 & m1 & A & B & U1 & C).
      rewrite A. cbn [obind]. inversion N as [|? ? Nn N']; subst.
      destruct (IH st1 m1 vs rest (fun n s I => H n s (or_intror I)) N' U1 B) as (st' & m' & A' & B' & U' & C' & D').
      exists st', m'. split; [exact A'|]. split; [exact B'|]. split; [exact U'|]. split.
      + intros a Na. cbn [map In fst] in Na. rewrite C' by tauto. rewrite C.
        destruct (name_eqb_spec a n) as [->|]; [exfalso; tauto|reflexivity].
      + intros a s' [E|I].
        * inversion E; subst. rewrite C' by exact Nn. rewrite C. destruct (name_eqb_spec a a); [reflexivity|congruence].
        * rewrite (D' _ _ I). do 2 f_equal. unfold find_or_empty. rewrite C.
          destruct (name_eqb_spec a n) as [->|]; [|reflexivity].
          exfalso. apply Nn. apply in_map_iff. exists (n, s'). auto.
  Qed.
End Top.
