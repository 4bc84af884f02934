(** Writing a whole AutoFDO file and reading it back. *)
From Verif Require Import Base GcovModel GcovSpec GcovProofs SrcOffsetModel SrcOffsetProofs SymbolModel SymbolSpec
  SymbolProofs AttribProofs ProfileSpec AfdoModel AfdoSpec AfdoProofs AfdoReadProofs AfdoEffProofs AfdoFileProofs.

(** ** sizes *)
Lemma zlen_write_val_pos v g : 1 <= zlen (write_val v g []).
Proof.
  destruct g; cbn [write_val].
  - unfold gcov_write_unsigned. rewrite zlen_app, zlen_le32. cbn; lia.
  - unfold gcov_write_counter. rewrite !zlen_app, !zlen_le32. cbn; lia.
  - unfold gcov_write_string. cbn zeta. cbn [app].
    destruct (2 <=? v); rewrite (zlen_app (le32 _)), zlen_le32;
    match goal with |- _ <= _ + zlen ?l => pose proof (zlen_nonneg l) end; lia.
Qed.
Lemma zlen_write_vals_ge v vs : zlen vs <= zlen (write_vals v vs).
Proof.
  induction vs as [|g vs IH]; [reflexivity|]. rewrite write_vals_cons, zlen_app, zlen_cons.
  pose proof (zlen_write_val_pos v g). lia.
Qed.
Lemma zlen_flat_map_ge {A B} (f : A -> list B) l : (forall a, In a l -> 1 <= zlen (f a)) -> zlen l <= zlen (flat_map f l).
Proof.
  induction l as [|a l IH]; intros H; [reflexivity|]. cbn [flat_map]. rewrite zlen_app, zlen_cons.
  pose proof (H a (or_introl eq_refl)). assert (zlen l <= zlen (flat_map f l)) by (apply IH; intros; apply H; right; auto). lia.
Qed.
Lemma zlen_flat_map_in {A B} (f : A -> list B) l a : In a l -> zlen (f a) <= zlen (flat_map f l).
Proof.
  induction l as [|b l IH]; intros []; cbn [flat_map]; rewrite zlen_app.
  - subst. pose proof (zlen_nonneg (flat_map f l)). lia.
  - specialize (IH H). pose proof (zlen_nonneg (f b)). lia.
Qed.

Lemma pvals_small t ps : zlen ps <= zlen (pvals t ps) /\
  forall l i, In (l, i) ps -> zlen (p_targets i) <= zlen (pvals t ps).
Proof.
  split.
  - apply zlen_flat_map_ge. intros [l i] _. rewrite zlen_cons. pose proof (@zlen_nonneg gval). apply (Z.le_trans _ (0+1)); [lia|].
    apply Z.add_le_mono_r || idtac. rewrite !zlen_cons. pose proof (zlen_nonneg (tvals t (p_targets i))). lia.
  - intros l i I. eapply Z.le_trans; [|apply (zlen_flat_map_in _ _ _ I)]. cbn beta iota.
    rewrite !zlen_cons. assert (zlen (p_targets i) <= zlen (tvals t (p_targets i))); [|lia].
    apply zlen_flat_map_ge. intros [n c] _. cbn. lia.
Qed.

Lemma sub_traverse_small v t s : forall s', In (ENode s') (traverse s) ->
  zlen (flat_map (evals v t) (traverse s')) <= zlen (flat_map (evals v t) (traverse s)).
Proof.
  induction s as [h tot ts pos calls IH] using symbol_ind'. intros s' I. cbn [traverse] in I.
  destruct I as [E|I]; [inversion E; subst; lia|].
  apply in_flat_map in I. destruct I as ([k c] & I1 & [E|I2]); [discriminate|].
  specialize (IH k c I1 s' I2). cbn [traverse flat_map]. rewrite zlen_app.
  eapply Z.le_trans; [exact IH|].
  assert (zlen (flat_map (evals v t) (traverse c)) <=
          zlen (flat_map (evals v t) (flat_map (fun '(k, c) => ECall k :: traverse c) calls))).
  { clear - I1. induction calls as [|[k' c'] calls IHc]; [destruct I1|].
    cbn [flat_map]. rewrite flat_map_app, zlen_app. cbn [flat_map]. rewrite zlen_app.
    destruct I1 as [E|I1].
    - inversion E; subst. 
      pose proof (zlen_nonneg (evals v t (ECall k))).
      pose proof (zlen_nonneg (flat_map (evals v t) (flat_map (fun '(k, c) => ECall k :: traverse c) calls))). lia.
    - specialize (IHc I1). pose proof (zlen_nonneg (evals v t (ECall k'))).
      pose proof (zlen_nonneg (flat_map (evals v t) (traverse c'))). lia. }
  pose proof (zlen_nonneg (evals v t (ENode (Sym h tot ts pos calls)))). lia.
Qed.
Lemma calls_small v t calls : zlen calls <= zlen (flat_map (evals v t) (flat_map (fun '(k, c) => ECall k :: traverse c) calls)).
Proof.
  induction calls as [|[k c] calls IH]; [reflexivity|]. cbn [flat_map]. rewrite flat_map_app, zlen_app, zlen_cons.
  cbn [flat_map]. rewrite zlen_app. destruct k. change (zlen (evals v t (ECall (z, n)))) with 2.
  pose proof (zlen_nonneg (flat_map (evals v t) (traverse c))). lia.
Qed.
Lemma traverse_node_small v t s B : zlen (flat_map (evals v t) (traverse s)) < B -> B <= 2 ^ 32 ->
  forall s', In (ENode s') (traverse s) -> node_small s'.
Proof.
  intros H HB s' I. apply (sub_traverse_small v t) in I. destruct s' as [h tot ts pos calls].
  cbn [traverse flat_map evals s_pos s_calls] in I. rewrite zlen_app, !zlen_cons in I.
  pose proof (calls_small v t calls). destruct (pvals_small t pos) as [A C].
  pose proof (zlen_nonneg (pvals t pos)).
  pose proof (zlen_nonneg (flat_map (evals v t) (flat_map (fun '(k, c) => ECall k :: traverse c) calls))).
  unfold node_small; cbn [s_pos s_calls]. split; [lia|]. split; [lia|]. intros l i Il. specialize (C l i Il). lia.
Qed.
Lemma depth_small v t s : Z.of_nat (depth s) <= zlen (flat_map (evals v t) (traverse s)).
Proof.
  induction s as [h tot ts pos calls IH] using symbol_ind'.
  cbn [depth traverse flat_map evals s_pos s_calls]. rewrite zlen_app, !zlen_cons.
  assert (Z.of_nat (fold_right (fun kc a => Nat.max (depth (snd kc)) a) O calls)
    <= zlen (flat_map (evals v t) (flat_map (fun '(k, c) => ECall k :: traverse c) calls))).
  { clear - IH. induction calls as [|[k c] calls IHc]; [cbn; lia|].
    cbn [fold_right flat_map snd]. rewrite flat_map_app, zlen_app. cbn [flat_map]. rewrite zlen_app.
    specialize (IHc (fun k c I => IH k c (or_intror I))). specialize (IH k c (or_introl eq_refl)).
    pose proof (zlen_nonneg (evals v t (ECall k))).
    pose proof (zlen_nonneg (flat_map (evals v t) (flat_map (fun '(k, c) => ECall k :: traverse c) calls))).
    pose proof (zlen_nonneg (flat_map (evals v t) (traverse c))). lia. }
  pose proof (zlen_nonneg (pvals t pos)). lia.
Qed.

(** ** what reading a function does *)
Lemma sumc_counts s : sumc s = counts_below s.
Proof. reflexivity. Qed.
Lemma below_counts s q : below s q = counts_below_at s q.
Proof. unfold below, counts_below_at. destruct (node_at s q); auto using sumc_counts. Qed.

Lemma fold_aset (f : name -> name) (ts : list (name * Z)) : NoDup (akeys ts) -> (forall n c, In (n, c) ts -> f n = n) -> forall m n,
  aget name_eqb n (fold_left (fun m tc => aset name_eqb (f (fst tc)) (snd tc) m) ts m)
  = match aget name_eqb n ts with Some c => Some c | None => aget name_eqb n m end.
Proof.
  induction ts as [|[k c] ts IH]; intros N H m n; [reflexivity|].
  cbn [fold_left fst snd]. inversion N as [|? ? Nk N']; subst.
  rewrite IH by (auto; intros; eapply H; right; eauto). cbn [aget].
  rewrite (H k c (or_introl eq_refl)). rewrite aget_aset by apply name_eqb_spec.
  destruct (name_eqb_spec n k) as [->|D].
  - assert (aget name_eqb k ts = None) as -> by (apply (aget_None_iff name_eqb name_eqb_spec); exact Nk).
    reflexivity.
  - reflexivity.
Qed.

Lemma fits_pos v base orig s : fits v base orig s -> forall q l i, pos_at s q l = Some i ->
  targets_ok (p_targets i) /\ forall n c, In (n, c) (p_targets i) -> orig n = n.
Proof.
  induction s as [h tot ts pos calls IH] using symbol_ind'. intros F q l i.
  inversion F as [? ? ? ? ? Hh Hts Np Nc Hp Hc]; subst.
  destruct q as [|k q]; unfold pos_at; cbn [node_at s_calls s_pos].
  - intros E. apply (aget_In Z.eqb Z.eqb_spec) in E. destruct (Hp l i E) as (_ & _ & A & B). split; auto.
    intros n c I. apply (B n c I).
  - destruct (aget callsite_eqb k calls) as [c|] eqn:E; [|discriminate].
    apply (aget_In callsite_eqb callsite_eqb_spec) in E. destruct k as [lk nk].
    destruct (Hc lk nk c E) as (_ & _ & _ & Fc). intros X. exact (IH _ c E Fc q l i X).
Qed.

Lemma u64_mod x : u64 x = x mod 2 ^ 64. Proof. reflexivity. Qed.

Lemma node_at_head hd ts s q :
  node_at (add_head hd (set_ts ts s)) q = match q with [] => Some (add_head hd (set_ts ts s)) | _ => node_at s q end.
Proof. destruct q; [reflexivity|]. destruct s; reflexivity. Qed.

Lemma after_read_into base orig version force old s n :
  fits version base orig s -> sym_ok old -> taken force old = true ->
  read_into old s (after base orig version force old s n).
Proof.
  intros F O T. unfold after. rewrite T. set (cur := add_head (s_head s) (set_ts (ts_read version s) old)).
  assert (TA : forall q, total_at cur q = total_at old q).
  { intros q. unfold total_at, cur. rewrite node_at_head. destruct q; [|reflexivity].
    cbn [node_at]. destruct old. cbn. inversion O; subst. unfold add64. rewrite Z.add_0_r. apply u64_id. auto. }
  assert (PA : forall q l, pos_at cur q l = pos_at old q l).
  { intros q l. unfold pos_at, cur. rewrite node_at_head. destruct q; [|reflexivity]. destruct old; reflexivity. }
  assert (NA : forall q, has_node cur q = has_node old q).
  { intros q. unfold has_node, cur. rewrite node_at_head. destruct q; [|reflexivity]. destruct old; reflexivity. }
  assert (TO : tot_ok cur).
  { intros q. rewrite TA. unfold total_at. destruct (node_at old q) eqn:E.
    - apply sym_ok_total. eauto using node_at_ok.
    - unfold is_u64; lia. }
  pose proof (eff_sym_obs base orig s (fits_locs _ _ _ _ F) n [] cur TO) as OB. cbv zeta in OB.
  rewrite path_of_top in OB.
  intros q l t. destruct (OB q) as (B1 & B2 & B3 & B4). clear OB. specialize (B4 l).
  rewrite NA in B1. rewrite TA in B2. unfold contrib in B2. cbn [sub] in B2. rewrite below_counts in B2.
  unfold merged in B4. cbn [sub] in B4. rewrite PA in B4. cbn [app] in B1.
  set (s' := eff_sym base orig n [] s cur) in *.
  split; [|split; [|split; [|split; [|split; [|split]]]]].
  - rewrite B1. split.
    + intros [H|(q' & l' & H1 & H2)]; auto. right. apply is_prefix_iff in H2. destruct H2 as [r ->]. eauto.
    + intros [H|(r & l' & H)]; auto. right. exists (q ++ r), l'. split; auto. apply is_prefix_app.
  - rewrite B2. reflexivity.
  - rewrite B3. unfold head_at, cur. rewrite node_at_head. destruct q; [|reflexivity].
    cbn [node_at]. destruct old. reflexivity.
  - unfold has_pos. rewrite B4. destruct (pos_at s q l); [|rewrite orb_false_r; reflexivity].
    rewrite orb_true_r. reflexivity.
  - unfold count_at. rewrite B4. destruct (pos_at s q l) as [i|].
    + cbn [comb p_count]. destruct (pos_at old q l); reflexivity.
    + rewrite Z.add_0_r. destruct (pos_at old q l) as [j|] eqn:E; [|reflexivity].
      symmetry. apply Z.mod_small. destruct (pos_at_ok _ _ _ _ O E) as [A _]. exact A.
  - unfold has_target. rewrite B4. destruct (pos_at s q l) as [i|] eqn:E.
    + destruct (fits_pos _ _ _ _ F _ _ _ E) as [[N _] Ho]. cbn [comb p_targets].
      rewrite fold_aset by auto. destruct (pos_at old q l); cbn [p_targets pinfo0 aget];
      destruct (aget name_eqb t (p_targets i)); rewrite ?orb_true_r, ?orb_false_r; reflexivity.
    + rewrite orb_false_r. reflexivity.
  - unfold target_at, has_target. rewrite B4. destruct (pos_at s q l) as [i|] eqn:E; [|reflexivity].
    destruct (fits_pos _ _ _ _ F _ _ _ E) as [[N _] Ho]. unfold tget. cbn [comb p_targets].
    rewrite fold_aset by auto. destruct (aget name_eqb t (p_targets i)) eqn:E2; [reflexivity|].
    destruct (pos_at old q l); reflexivity.
Qed.
Lemma after_ts base orig version force old s n :
  s_ts (after base orig version force old s n) = ts_read version s.
Proof.
  unfold after. destruct (taken force old); [rewrite eff_sym_ts|]; destruct old; reflexivity.
Qed.

(** ** the other sections *)
Lemma rep_ok {A} k (f : A -> outcome A) (P : nat -> A -> Prop) :
  (forall j a, (j < k)%nat -> P j a -> exists a', f a = Ok a' /\ P (S j) a') ->
  forall a, P O a -> exists a', rep k f a = Ok a' /\ P k a'.
Proof.
  intros H. assert (G : forall i j a, (j + i = k)%nat -> P j a -> exists a', rep i f a = Ok a' /\ P k a').
  { induction i as [|i IH]; intros j a E Pa; cbn [rep].
    - exists a. split; auto. replace k with j by lia. exact Pa.
    - destruct (H j a) as (a1 & E1 & P1); [lia|exact Pa|]. rewrite E1. cbn [obind]. apply (IH (S j)); [lia|exact P1]. }
  intros a. apply (G k O). lia.
Qed.

Lemma u32_range x : 0 <= u32 x < 2 ^ 32.
Proof. unfold u32, w32. apply Z.mod_pos_bound. lia. Qed.

Section Sections.
  Variable v : Z.
  Lemma rd_tag tag st vs rest : ready v st (VWord tag :: vs) rest -> 0 <= tag < 2 ^ 32 ->
    exists st', read_tag tag st = Ok st' /\ ready v st' vs rest.
  Proof.
    intros R B. destruct (rd_word _ _ _ _ _ R B) as (st' & E & R'). exists st'. split; [|exact R'].
    unfold read_tag. rewrite E. cbn [obind]. rewrite Z.eqb_refl. reflexivity.
  Qed.

  (** a loop that reads one value list per element *)
  Lemma rd_loop {A B} (enc : A -> list gval) (g : A -> B) (f : list B * rstate -> outcome (list B * rstate)) :
    forall l st acc vs rest,
    (forall a, In a l -> forall st acc vs rest, ready v st (enc a ++ vs) rest ->
       exists st', f (acc, st) = Ok (acc ++ [g a], st') /\ ready v st' vs rest) ->
    ready v st (flat_map enc l ++ vs) rest ->
    exists st', rep (length l) f (acc, st) = Ok (acc ++ map g l, st') /\ ready v st' vs rest.
  Proof.
    induction l as [|a l IH]; intros st acc vs rest H R.
    - exists st. cbn. rewrite app_nil_r. split; [reflexivity|exact R].
    - cbn [flat_map] in R. rewrite <- app_assoc in R.
      destruct (H a (or_introl eq_refl) _ acc _ _ R) as (st1 & E1 & R1).
      cbn [length rep]. rewrite E1. cbn [obind].
      destruct (IH st1 (acc ++ [g a]) vs rest) as (st' & E & R'); [intros; apply H; [right|]; auto|exact R1|].
      exists st'. split; [|exact R']. rewrite E. cbn [map]. rewrite <- app_assoc. reflexivity.
  Qed.

  Lemma rd_summary s st vs rest : summary_fits s -> zlen (su_detail s) < 2 ^ 32 ->
    ready v st (summary_vals s ++ vs) rest ->
    exists st', read_summary st = Ok (s, st') /\ ready v st' vs rest.
  Proof.
    intros (A & B & C & D & E & F) L R. unfold summary_vals in R. cbn [app] in R.
    unfold read_summary.
    destruct (rd_tag _ _ _ _ R) as (st1 & -> & R1); [lia|]. cbn [obind].
    destruct (rd_counter _ _ _ _ _ R1 A) as (st2 & -> & R2). cbn [obind].
    destruct (rd_counter _ _ _ _ _ R2 B) as (st3 & -> & R3). cbn [obind].
    destruct (rd_counter _ _ _ _ _ R3 C) as (st4 & -> & R4). cbn [obind].
    destruct (rd_counter _ _ _ _ _ R4 D) as (st5 & -> & R5). cbn [obind].
    destruct (rd_counter _ _ _ _ _ R5 E) as (st6 & -> & R6). cbn [obind].
    pose proof (zlen_nonneg (su_detail s)).
    destruct (rd_counter _ _ _ _ _ R6) as (st7 & -> & R7); [lia|]. cbn [obind].
    assert (u32 (zlen (su_detail s)) = zlen (su_detail s)) as -> by (apply Z.mod_small; unfold w32; lia).
    rewrite zlen_to_nat.
    match goal with |- context [rep _ ?f _] => set (fn := f) end.
    destruct (rd_loop (fun '(c, m, n) => [VWord c; VCounter m; VCounter n]) (fun x => x) fn (su_detail s) st7 [] vs rest)
      as (st' & E' & R'); [|exact R7|].
    { intros [[c m] n] I st0 acc vs0 rest0 R0. rewrite Forall_forall in F. destruct (F _ I) as (F1 & F2 & F3).
      cbn [app] in R0. unfold fn.
      destruct (rd_word _ _ _ _ _ R0 F1) as (sa & -> & Ra). cbn [obind].
      destruct (rd_counter _ _ _ _ _ Ra F2) as (sb & -> & Rb). cbn [obind].
      destruct (rd_counter _ _ _ _ _ Rb F3) as (sc & -> & Rc). cbn [obind].
      exists sc. split; [reflexivity|exact Rc]. }
    rewrite E'. cbn [obind app]. rewrite map_id. exists st'. split; [|exact R']. destruct s; reflexivity.
  Qed.

  Lemma rd_str n st vs rest : name_fits v n -> ready v st (VString n :: vs) rest ->
    exists st', read_str v st = Ok (n, st') /\ ready v st' vs rest.
  Proof.
    intros F R. destruct (rd_string _ _ _ _ _ R F) as (st' & E & R'). exists st'. split; [|exact R'].
    unfold read_str. rewrite E. reflexivity.
  Qed.

  Lemma rd_name_table files file_idx t st vs rest :
    Forall (name_fits v) files -> zlen files < 2 ^ 32 -> zlen t < 2 ^ 32 ->
    Forall (fun n => name_fits v n /\ plain n) t ->
    ready v st (name_vals v files file_idx t ++ vs) rest ->
    exists st', read_name_table v st =
      Ok (if 3 <=? v then files else [],
          map (fun n => (n, if 3 <=? v then u32 (file_idx n) else w32 - 1)) t, st') /\ ready v st' vs rest.
  Proof.
    intros Ff Lf Lt Ft R. unfold name_vals in R. cbn [app] in R. unfold read_name_table.
    destruct (rd_tag _ _ _ _ R) as (st1 & -> & R1); [lia|]. cbn [obind].
    destruct (rd_word _ _ _ _ _ R1) as (st2 & -> & R2); [apply u32_range|]. cbn [obind].
    pose proof (zlen_nonneg files). pose proof (zlen_nonneg t).
    match goal with |- context [obind (if 3 <=? v then ?a else ?b) _] => set (rdf := if 3 <=? v then a else b) end.
    assert (X : exists st3, rdf = Ok (if 3 <=? v then files else [], st3) /\
       ready v st3 (VWord (zlen t) :: flat_map (fun n => VString (rewrite_name n)
                 :: (if 3 <=? v then [VWord (u32 (file_idx n))] else [])) t ++ vs) rest).
    { subst rdf. destruct (3 <=? v).
      - cbn [app] in R2. destruct (rd_word _ _ _ _ _ R2) as (st3 & -> & R3); [lia|]. cbn [obind].
        rewrite zlen_to_nat.
        match goal with |- context [rep _ ?f _] => set (fn := f) end.
        rewrite <- app_assoc in R3. cbn [app] in R3.
        assert (Em : map VString files = flat_map (fun n => [VString n]) files)
          by (clear; induction files; cbn; f_equal; auto).
        rewrite Em in R3.
        destruct (fun H => rd_loop (fun n => [VString n]) (fun x => x) fn files st3 [] _ rest H R3)
          as (st' & E' & R').
        { intros n I st0 acc vs0 rest0 R0. rewrite Forall_forall in Ff. cbn [app] in R0. unfold fn.
          destruct (rd_str n _ _ _ (Ff _ I) R0) as (sa & -> & Ra). cbn [obind]. eauto. }
        exists st'. split; [|exact R']. refine (eq_trans E' _). rewrite map_id. reflexivity.
      - exists st2. split; [reflexivity|exact R2]. }
    destruct X as (st3 & -> & R3). cbn [obind].
    destruct (rd_word _ _ _ _ _ R3) as (st4 & -> & R4); [lia|]. cbn [obind]. rewrite zlen_to_nat.
    match goal with |- context [rep _ ?f _] => set (fn := f) end.
    destruct (rd_loop (fun n => VString (rewrite_name n) :: (if 3 <=? v then [VWord (u32 (file_idx n))] else []))
       (fun n => (n, if 3 <=? v then u32 (file_idx n) else w32 - 1)) fn t st4 [] vs rest)
      as (st' & E' & R'); [|exact R4|].
    { intros n I st0 acc vs0 rest0 R0. rewrite Forall_forall in Ft. destruct (Ft _ I) as [F1 F2].
      rewrite plain_rewrite in R0 by exact F2. cbn [app] in R0. unfold fn.
      destruct (rd_str n _ _ _ F1 R0) as (sa & -> & Ra). cbn [obind].
      destruct (3 <=? v).
      - cbn [app] in Ra. destruct (rd_word _ _ _ _ _ Ra) as (sb & -> & Rb); [apply u32_range|]. cbn [obind]. eauto.
      - cbn [obind app] in *. eauto. }
    rewrite E'. cbn [obind app]. eauto.
  Qed.

  Lemma rd_modules st vs rest : ready v st (module_vals ++ vs) rest ->
    exists st', read_module_group st = Ok st' /\ ready v st' vs rest.
  Proof.
    intros R. unfold module_vals in R. cbn [app] in R. unfold read_module_group.
    destruct (rd_tag _ _ _ _ R) as (st1 & -> & R1); [lia|]. cbn [obind].
    destruct (rd_word _ _ _ _ _ R1) as (st2 & -> & R2); [lia|]. cbn [obind].
    destruct (rd_word _ _ _ _ _ R2) as (st3 & -> & R3); [lia|]. cbn [obind]. eauto.
  Qed.

  Lemma rd_working_set ws st rest : length ws = 128%nat -> Forall (fun '(n, c) => 0 <= n < 2 ^ 32 /\ is_u64 c) ws ->
    ready v st (working_set_vals ws) rest ->
    exists st', read_working_set st = Ok (map (fun '(n, c) => (n / 10 * 10, c)) ws, st') /\ ready v st' [] rest.
  Proof.
    intros L F R. unfold working_set_vals in R. cbn [app] in R. unfold read_working_set.
    destruct (rd_tag _ _ _ _ R) as (st1 & -> & R1); [lia|]. cbn [obind].
    destruct (rd_word _ _ _ _ _ R1) as (st2 & -> & R2); [lia|]. cbn [obind].
    rewrite <- L. match goal with |- context [rep _ ?f _] => set (fn := f) end.
    rewrite <- (app_nil_r (flat_map _ ws)) in R2.
    destruct (fun H => rd_loop _ (fun '(n, c) => (n / 10 * 10, c)) fn ws st2 [] [] rest H R2) as (st' & E' & R').
    { intros [n c] I st0 acc vs0 rest0 R0. rewrite Forall_forall in F. destruct (F _ I) as [F1 F2].
      cbn [app] in R0. unfold fn.
      assert (0 <= n / 10 < 2 ^ 32).
      { split; [apply Z.div_pos; lia|]. apply Z.div_lt_upper_bound; lia. }
      destruct (rd_word _ _ _ _ _ R0) as (sa & -> & Ra); [assumption|]. cbn [obind].
      destruct (rd_counter _ _ _ _ _ Ra F2) as (sb & -> & Rb). cbn [obind].
      exists sb. split; [|exact Rb]. do 3 f_equal. apply f_equal2; [|reflexivity].
      apply f_equal2; [|reflexivity]. unfold u32. apply Z.mod_small. unfold w32.
      pose proof (Z.mul_div_le n 10). lia. }
    exists st'. rewrite E'. cbn [app]. auto.
  Qed.
End Sections.

(** ** the whole file *)
Lemma emitted_ShouldEmit thr s : emitted thr s <-> ShouldEmit thr (s_total s) = true.
Proof. unfold emitted, ShouldEmit. rewrite Z.ltb_lt. reflexivity. Qed.

Lemma name_fits_nil v : name_fits v [].
Proof. split; [constructor|]. destruct (2 <=? v); cbn; lia. Qed.

Lemma In_traverse_emit em n s e : In (n, s) em -> In e (traverse s) ->
  In e (flat_map (fun '(n, s) => ETop n s :: traverse s) em).
Proof. intros I J. apply in_flat_map. exists (n, s). split; auto. right; auto. Qed.

Lemma start_filter thr tops : start thr tops =
  flat_map (fun '(n, s) => ETop n s :: traverse s) (filter (fun ns => ShouldEmit thr (s_total (snd ns))) tops).
Proof.
  unfold start. induction tops as [|[n s] tops IH]; [reflexivity|]. cbn [flat_map filter snd]. rewrite IH.
  destruct (ShouldEmit thr (s_total s)); reflexivity.
Qed.

Lemma whole base orig version force thr x tops bytes alloc m :
  is_u32 version -> 0 <= alloc ->
  WriteToFile version thr x tops = Ok bytes -> zlen bytes < 2 ^ 32 ->
  let em := filter (fun ns => ShouldEmit thr (s_total (snd ns))) tops in
  NoDup (map fst em) ->
  (forall n s, In (n, s) em -> name_fits version n /\ plain n /\ fits version base orig s) ->
  extras_fit version x -> unshared m ->
  exists t r, string_table (start thr tops) = Ok t /\
    ReadFromFile base orig force alloc bytes m = Ok r /\
    af_version r = version /\
    af_summary r = (if 3 <=? version then Some (ex_summary x) else None) /\
    af_files r = (if 3 <=? version then ex_files x else []) /\
    af_names r = map (fun n => (n, if 3 <=? version then u32 (ex_file_idx x n) else w32 - 1)) t /\
    af_ws r = map (fun '(n, c) => (n / 10 * 10, c)) (ex_ws x) /\
    unshared (af_map r) /\
    (forall a, ~ In a (map fst em) -> sm_find (af_map r) a = sm_find m a) /\
    (forall n s, In (n, s) em ->
       sm_find (af_map r) n = Some (after base orig version force (find_or_empty m n) s n)).
Proof.
  intros V A W L em Nd Fit (Xf & Xs & Xl & Xw) Um. unfold WriteToFile, write_file in W.
  rewrite start_filter in *. fold em in W |- *.
  assert (NF : lengther_num_functions (flat_map (fun '(n, s) => ETop n s :: traverse s) em) = zlen em).
  { unfold em. rewrite <- start_filter. apply start_num_functions. }
  set (evs := flat_map (fun '(n, s) => ETop n s :: traverse s) em) in *.
  destruct (string_table evs) as [t| |] eqn:Et; cbn [obind] in W; try discriminate.
  destruct (events_vals version t evs) as [body| |] eqn:Eb; cbn [obind] in W; try discriminate.
  apply events_vals_inv in Eb. subst body.
  destruct (string_table_spec _ _ Et) as (Ts & Tin & Tne & Thd).
  match type of W with Ok (write_vals _ ?vs) = _ => set (vs0 := vs) in W end.
  inversion W; subst bytes; clear W.
  set (bytes := write_vals version vs0) in *.
  assert (Lv : zlen vs0 < 2 ^ 32).
  { pose proof (zlen_write_vals_ge version vs0). fold bytes in H. lia. }
  assert (Lbytes : zlen vs0 <= zlen bytes) by apply zlen_write_vals_ge.
  (* sizes *)
  assert (L1 : zlen (if 3 <=? version then summary_vals (ex_summary x) else []) +
               zlen (name_vals version (ex_files x) (ex_file_idx x) t) +
               zlen (flat_map (evals version t) evs) <= zlen vs0).
  { subst vs0. rewrite !zlen_app.
    pose proof (zlen_nonneg [VWord 1734567009; VWord version; VWord 0]).
    pose proof (zlen_nonneg (function_header evs)). pose proof (zlen_nonneg module_vals).
    pose proof (zlen_nonneg (working_set_vals (ex_ws x))). lia. }
  pose proof (zlen_nonneg (name_vals version (ex_files x) (ex_file_idx x) t)) as P1.
  pose proof (zlen_nonneg (flat_map (evals version t) evs)) as P2.
  pose proof (zlen_nonneg (if 3 <=? version then summary_vals (ex_summary x) else [])) as P3.
  assert (Lt : zlen t < 2 ^ 32).
  { assert (zlen t <= zlen (name_vals version (ex_files x) (ex_file_idx x) t)); [|lia].
    unfold name_vals. rewrite !zlen_app, !zlen_cons.
    match goal with |- context [flat_map ?f t] => set (c := flat_map f t); assert (zlen t <= zlen c) end.
    { apply zlen_flat_map_ge. intros n _. rewrite zlen_cons.
      match goal with |- context [zlen ?l] => pose proof (zlen_nonneg l) end. lia. }
    match goal with |- context [zlen (if ?b then ?p else ?q)] => pose proof (zlen_nonneg (if b then p else q)) end.
    change (zlen (@nil gval)) with 0. lia. }
  assert (Lf : 3 <= version -> zlen (ex_files x) < 2 ^ 32).
  { intros V3. assert (zlen (ex_files x) <= zlen (name_vals version (ex_files x) (ex_file_idx x) t)); [|lia].
    unfold name_vals. destruct (Z.leb_spec 3 version); [|lia]. rewrite !zlen_app, !zlen_cons.
    assert (zlen (map VString (ex_files x)) = zlen (ex_files x)) as -> by (unfold zlen; rewrite map_length; reflexivity).
    match goal with |- context [flat_map ?f ?l] => pose proof (zlen_nonneg (flat_map f l)) end.
    change (zlen (@nil gval)) with 0. lia. }
  assert (Ls : 3 <= version -> zlen (su_detail (ex_summary x)) < 2 ^ 32).
  { intros V3. assert (zlen (su_detail (ex_summary x)) <= zlen (summary_vals (ex_summary x))).
    - unfold summary_vals. rewrite zlen_app.
      match goal with |- _ <= zlen ?a + zlen ?b => pose proof (zlen_nonneg a); assert (zlen (su_detail (ex_summary x)) <= zlen b) end.
      { apply zlen_flat_map_ge. intros [[c mm] n] _. cbn; lia. } lia.
    - destruct (Z.leb_spec 3 version); lia. }
  assert (Tfit : Forall (fun n => name_fits version n /\ plain n) t).
  { apply Forall_forall. intros n I. apply Tin in I. destruct I as [->|I]; [split; [apply name_fits_nil|apply plain_nil]|].
    apply in_flat_map in I. destruct I as (e & I1 & I2). unfold evs in I1. apply in_flat_map in I1.
    destruct I1 as ([n' s'] & I1 & [<-|I3]); destruct (Fit _ _ I1) as (F1 & F2 & F3).
    - cbn [ev_names In] in I2. destruct I2 as [<-|[]]. auto.
    - eapply traverse_names_fit; eauto. }
  assert (Em : forall n s, In (n, s) em -> (depth s <= length bytes)%nat /\ sym_enc t s /\ In n t).
  { intros n s I. destruct (Fit _ _ I) as (F1 & F2 & F3).
    assert (Ln : zlen (flat_map (evals version t) (traverse s)) <= zlen (flat_map (evals version t) evs)).
    { unfold evs. clear - I. induction em as [|[n' s'] em IH]; [destruct I|]. cbn [flat_map].
      rewrite flat_map_app, zlen_app. cbn [flat_map]. rewrite zlen_app.
      pose proof (zlen_nonneg (flat_map (evals version t) (flat_map (fun '(n, s) => ETop n s :: traverse s) em))).
      pose proof (zlen_nonneg (evals version t (ETop n' s'))).
      pose proof (zlen_nonneg (flat_map (evals version t) (traverse s'))).
      destruct I as [E|I]; [inversion E; subst; lia|]. specialize (IH I). lia. }
    split; [|split].
    - pose proof (depth_small version t s). unfold zlen in *. lia.
    - apply (fits_enc version base orig); auto.
      + intros e a Ie Ia. apply Tin. right. apply in_flat_map. exists e. split; auto.
        unfold evs. eapply In_traverse_emit; eauto.
      + apply (traverse_node_small version t s (2 ^ 32)); lia.
    - apply Tin. right. apply in_flat_map. exists (ETop n s). split; [|cbn; auto].
      unfold evs. apply in_flat_map. exists (n, s). split; auto. left; auto. }
  (* reading *)
  exists t. unfold ReadFromFile.
  assert (R : ready version (gcov_open_read alloc bytes) vs0 []).
  { split; [apply rwf_open; exact A|]. rewrite pending_open, app_nil_r. reflexivity. }
  subst vs0. cbn [app] in R.
  destruct (rd_tag _ _ _ _ _ R) as (st1 & -> & R1); [lia|]. cbn [obind].
  destruct (rd_word _ _ _ _ _ R1) as (st2 & -> & R2); [exact V|]. cbn [obind].
  destruct (rd_word _ _ _ _ _ R2) as (st3 & -> & R3); [lia|]. cbn [obind].
  match goal with |- context [obind (if 3 <=? version then ?a else ?b) _] => set (rds := if 3 <=? version then a else b) end.
  assert (X : exists st4, rds = Ok (if 3 <=? version then Some (ex_summary x) else None, st4) /\
     ready version st4 (name_vals version (ex_files x) (ex_file_idx x) t ++
        function_header evs ++ flat_map (evals version t) evs ++ module_vals ++ working_set_vals (ex_ws x)) []).
  { subst rds. destruct (Z.leb_spec 3 version) as [V3|V3].
    - destruct (rd_summary _ _ _ _ _ Xs (Ls V3) R3) as (st4 & -> & R4). cbn [obind]. eauto.
    - exists st3. split; [reflexivity|exact R3]. }
  destruct X as (st4 & -> & R4). cbn [obind].
  assert (X : exists st5, read_name_table version st4 =
      Ok (if 3 <=? version then ex_files x else [],
          map (fun n => (n, if 3 <=? version then u32 (ex_file_idx x n) else w32 - 1)) t, st5) /\
      ready version st5 (function_header evs ++ flat_map (evals version t) evs ++ module_vals ++ working_set_vals (ex_ws x)) []).
  { destruct (Z.leb_spec 3 version) as [V3|V3].
    - destruct (rd_name_table version (ex_files x) (ex_file_idx x) t st4 _ [] Xf (Lf V3) Lt Tfit R4) as (st5 & E & R5).
      exists st5. destruct (Z.leb_spec 3 version); [|lia]. split; [exact E|exact R5].
    - assert (E0 : name_vals version (ex_files x) (ex_file_idx x) t = name_vals version [] (ex_file_idx x) t).
      { unfold name_vals. destruct (Z.leb_spec 3 version); [lia|reflexivity]. }
      rewrite E0 in R4.
      destruct (rd_name_table version [] (ex_file_idx x) t st4 _ [] (Forall_nil _) ltac:(cbn; lia) Lt Tfit R4) as (st5 & E & R5).
      exists st5. destruct (Z.leb_spec 3 version); [lia|]. split; [exact E|exact R5]. }
  destruct X as (st5 & -> & R5). cbn [obind].
  unfold read_functions. unfold function_header in R5. cbn [app] in R5.
  destruct (rd_tag _ _ _ _ _ R5) as (st6 & -> & R6); [lia|]. cbn [obind].
  destruct (rd_word _ _ _ _ _ R6) as (st7 & -> & R7); [apply u32_range|]. cbn [obind].
  destruct (rd_word _ _ _ _ _ R7) as (st8 & -> & R8); [apply u32_range|]. cbn [obind].
  assert (Lem : zlen em <= zlen (flat_map (evals version t) evs)).
  { unfold evs. clear. induction em as [|[n s] em IH]; [reflexivity|]. cbn [flat_map].
    rewrite flat_map_app, zlen_app, zlen_cons. cbn [flat_map]. rewrite zlen_app.
    assert (1 <= zlen (evals version t (ETop n s))).
    { cbn [evals]. rewrite zlen_cons. match goal with |- context [zlen ?l] => pose proof (zlen_nonneg l) end. lia. }
    pose proof (zlen_nonneg (flat_map (evals version t) (traverse s))). lia. }
  rewrite NF. assert (u32 (zlen em) = zlen em) as ->.
  { apply Z.mod_small. pose proof (zlen_nonneg em). unfold w32. lia. }
  rewrite zlen_to_nat.
  assert (Mt : map fst (map (fun n => (n, if 3 <=? version then u32 (ex_file_idx x n) else w32 - 1)) t) = t).
  { rewrite map_map. cbn. apply map_id. }
  rewrite Mt.
  destruct (read_all base orig version force t Lt (length bytes) em st8 m _ [] Em Nd Um R8)
    as (st9 & m' & E9 & R9 & U9 & F9 & G9).
  rewrite E9. cbn [obind].
  destruct (rd_modules _ _ _ _ R9) as (st10 & -> & R10). cbn [obind].
  destruct (rd_working_set _ _ _ _ Xl Xw R10) as (st11 & -> & R11). cbn [obind].
  eexists. split; [reflexivity|]. split; [reflexivity|]. cbn [af_version af_summary af_files af_names af_ws af_map].
  repeat (split; [reflexivity|]). split; [exact U9|]. split; [exact F9|exact G9].
Qed.
