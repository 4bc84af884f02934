(** Proofs about reading LLVM profiles, part 1: one function. *)
From Verif Require Import Base AssocFold SrcOffsetModel SymbolModel SymbolSpec SymbolProofs AttribProofs
  AfdoModel AfdoReadProofs AfdoEffProofs ByteModel LlvmReadModel LlvmReadSpec.

Lemma sub_u64 a b : u64 (u64 a + b) = u64 (a + b).
Proof. unfold u64. apply Zplus_mod_idemp_l. Qed.
Lemma zsum_app a b : zsum (a ++ b) = zsum a + zsum b.
Proof. induction a; cbn [zsum app fold_right] in *; [reflexivity|]. unfold zsum in *. lia. Qed.
Lemma w64_pow : w64 = 2 ^ 64. Proof. reflexivity. Qed.

Definition at_pl (q : path) (l : Z) (r : srec) : bool := path_eqb (r_path r) q && (r_loc r =? l).
Definition nonempty {A} (l : list A) : bool := match l with [] => false | _ => true end.
Lemma nonempty_app {A} (a b : list A) : nonempty (a ++ b) = nonempty a || nonempty b.
Proof. destruct a; reflexivity. Qed.

Definition total_ok (s : symbol) : Prop := forall q, is_u64 (total_at s q).

Section Adds.
  Variable orig : name -> name.

  (** symbol [b] is symbol [a] after the records [rs] *)
  Definition adds (rs : list srec) (a b : symbol) : Prop := forall q l t,
    has_node b q = has_node a q || nonempty (filter (fun r => is_prefix q (r_path r)) rs) /\
    total_at b q = u64 (total_at a q + zsum (map r_count (filter (fun r => is_prefix q (r_path r)) rs))) /\
    head_at b q = head_at a q /\
    has_pos b q l = has_pos a q l || nonempty (filter (at_pl q l) rs) /\
    count_at b q l = u64 (count_at a q l + zsum (map r_count (filter (at_pl q l) rs))) /\
    ninst_at b q l = u64 (ninst_at a q l + Z.of_nat (length (filter (at_pl q l) rs))) /\
    target_at b q l t = last (target_counts orig (filter (at_pl q l) rs) t) (target_at a q l t) /\
    has_target b q l t = has_target a q l t || nonempty (target_counts orig (filter (at_pl q l) rs) t).

  Lemma last_app {A} (a b : list A) d : last (a ++ b) d = last b (last a d).
  Proof.
    revert d. induction a as [|x a IH]; intros d; [reflexivity|].
    destruct a as [|y a].
    - cbn [app]. destruct b as [|z b]; [reflexivity|].
      cbn [last]. clear. revert z. induction b as [|w b IH]; intros z; [reflexivity|]. cbn [last] in *. apply IH.
    - specialize (IH d). cbn [app] in *. change (last (x :: y :: a ++ b) d) with (last (y :: a ++ b) d).
      change (last (x :: y :: a) d) with (last (y :: a) d). exact IH.
  Qed.

  Lemma target_counts_app a b t : target_counts orig (a ++ b) t = target_counts orig a t ++ target_counts orig b t.
  Proof. unfold target_counts. apply flat_map_app. Qed.

  Lemma adds_app r1 r2 a b c : adds r1 a b -> adds r2 b c -> adds (r1 ++ r2) a c.
  Proof.
    intros H1 H2 q l t. destruct (H1 q l t) as (A1 & A2 & A3 & A4 & A5 & A6 & A7 & A8).
    destruct (H2 q l t) as (B1 & B2 & B3 & B4 & B5 & B6 & B7 & B8).
    rewrite !filter_app, !map_app, !zsum_app, app_length, target_counts_app, last_app, !nonempty_app.
    rewrite Nat2Z.inj_add.
    rewrite B1, A1, B2, A2, B3, A3, B4, A4, B5, A5, B6, A6, B7, A7, B8, A8.
    rewrite !sub_u64, !Z.add_assoc, !orb_assoc. repeat split.
  Qed.

  Lemma sym_ok_total_at s q : sym_ok s -> is_u64 (total_at s q).
  Proof.
    intros H. unfold total_at. destruct (node_at s q) eqn:E; [|apply u64_0].
    apply sym_ok_total. eauto using node_at_ok.
  Qed.
  Lemma sym_ok_count_at s q l : sym_ok s -> is_u64 (count_at s q l) /\ is_u64 (ninst_at s q l).
  Proof.
    intros H. unfold count_at, ninst_at. destruct (pos_at s q l) eqn:E; [|split; apply u64_0].
    destruct (pos_at_ok _ _ _ _ H E) as (A & B & _). auto.
  Qed.

  Lemma adds_nil a : sym_ok a -> adds [] a a.
  Proof.
    intros H q l t. cbn [filter map nonempty length target_counts flat_map last].
    rewrite !orb_false_r. change (zsum []) with 0. change (Z.of_nat 0) with 0. rewrite !Z.add_0_r.
    destruct (sym_ok_count_at a q l H). pose proof (sym_ok_total_at a q H).
    rewrite !u64_id by auto. repeat split.
  Qed.
End Adds.

Section Function.
  Variables (base : Z -> Z) (orig : name -> name).
  Notation act_count := (act_count base). Notation act_target := (act_target base orig).
  Notation eff_targets := (eff_targets base orig). Notation path_of := (path_of base).
  Notation adds := (adds orig). Notation target_counts := (target_counts orig).

  Lemma si_offset_frame n ld : si_offset base (frame n ld) = loc_of base ld.
  Proof. unfold si_offset, frame, loc_of. cbn [si_line si_start si_disc]. rewrite Z.sub_0_r. reflexivity. Qed.

  Lemma act_count_ok stack leaf c s : is_u64 c -> sym_ok s -> sym_ok (act_count stack leaf c s).
  Proof.
    intros Hc Hs. unfold AfdoReadProofs.act_count.
    apply (osn_ok base false c (si_offset base leaf) _ true); auto.
    intros i (I1 & I2 & I3). split; [|split]; cbn [p_count p_ninst p_targets]; auto; apply add64_range.
  Qed.
  Lemma act_target_ok stack leaf t c s : is_u64 c -> sym_ok s -> sym_ok (act_target stack leaf t c s).
  Proof.
    intros Hc Hs. unfold AfdoReadProofs.act_target.
    apply (osn_ok base false 0 (si_offset base leaf) _ true); auto.
    intros i (I1 & I2 & I3 & I4). split; [|split]; cbn [p_count p_ninst p_targets]; auto.
    split; [apply NoDup_akeys_aset; auto using name_eqb_spec|]. rewrite In_Forall_snd in *.
    intros u v Hi. apply (In_aset name_eqb name_eqb_spec) in Hi. destruct Hi as [Hi| ->]; eauto.
  Qed.

  Lemma act_count_adds stack leaf c s : sym_ok s ->
    adds [SRec (path_of (si_func leaf) stack) (si_offset base leaf) c []] s (act_count stack leaf c s).
  Proof.
    intros Hs q l t. unfold AfdoReadProofs.act_count.
    destruct (osn_obs base false c (si_offset base leaf)
      (fun p => PInfo (add64 (p_count p) c) (add64 (p_ninst p) 1) (p_targets p)) true
      (rev (leaf :: stack)) (rev_ne leaf stack) s q) as (A1 & A2 & A3 & A4).
    cbv iota in A1, A2, A3, A4. rewrite path_of_leaf in *. cbn [andb] in A4.
    set (P := path_of (si_func leaf) stack) in *.
    set (b := on_stack_node _ _ _ _ _ _) in *.
    cbn [filter r_path r_loc]. destruct (sym_ok_count_at s q l Hs) as [Uc Un].
    pose proof (sym_ok_total_at s q Hs) as Ut.
    split; [rewrite A1; destruct (is_prefix q P); cbn [nonempty]; reflexivity|].
    split; [rewrite A2; destruct (is_prefix q P); cbn [map zsum r_count fold_right];
            [unfold add64; f_equal; lia|rewrite Z.add_0_r, u64_id; auto]|].
    split; [exact A3|].
    unfold has_pos, count_at, ninst_at, target_at, has_target in *. rewrite A4.
    unfold at_pl. cbn [r_path r_loc].
    replace (path_eqb P q) with (path_eqb q P)
      by (destruct (path_eqb_spec q P), (path_eqb_spec P q); congruence).
    replace (si_offset base leaf =? l) with (l =? si_offset base leaf) by lia.
    destruct (path_eqb_spec q P) as [->|Hq]; cbn [andb].
    2:{ cbn [map zsum fold_right length nonempty target_counts flat_map last]. rewrite orb_false_r.
        change (Z.of_nat 0) with 0. rewrite !Z.add_0_r. destruct (pos_at s q l); rewrite ?u64_id by auto; repeat split;
        rewrite ?orb_false_r; reflexivity. }
    destruct (Z.eqb_spec l (si_offset base leaf)) as [->|Hl].
    2:{ cbn [map zsum fold_right length nonempty target_counts flat_map last]. rewrite orb_false_r.
        change (Z.of_nat 0) with 0. rewrite !Z.add_0_r. destruct (pos_at s P l); rewrite ?u64_id by auto; repeat split;
        rewrite ?orb_false_r; reflexivity. }
    cbn [map zsum fold_right length nonempty target_counts LlvmReadSpec.target_counts flat_map last filter r_targets r_count app].
    rewrite orb_true_r, !orb_false_r, Z.add_0_r. change (Z.of_nat 1) with 1.
    destruct (pos_at s P (si_offset base leaf)) as [i|] eqn:E;
      cbn [p_count p_ninst p_targets pinfo0]; repeat split.
  Qed.

  Lemma act_target_adds stack leaf t0 c s : sym_ok s ->
    let P := path_of (si_func leaf) stack in let off := si_offset base leaf in
    let b := act_target stack leaf t0 c s in
    has_pos s P off = true ->
    forall q l t,
      has_node b q = has_node s q || is_prefix q P /\
      total_at b q = total_at s q /\ head_at b q = head_at s q /\
      has_pos b q l = has_pos s q l /\
      count_at b q l = count_at s q l /\ ninst_at b q l = ninst_at s q l /\
      target_at b q l t = (if path_eqb P q && (off =? l) && name_eqb (orig t0) t then c else target_at s q l t) /\
      has_target b q l t = has_target s q l t || (path_eqb P q && (off =? l) && name_eqb (orig t0) t).
  Proof.
    intros Hs P off b Hp q l t. unfold b, AfdoReadProofs.act_target. fold off.
    destruct (osn_obs base false 0 off
      (fun p => PInfo (p_count p) (p_ninst p) (aset name_eqb (orig t0) c (p_targets p))) true
      (rev (leaf :: stack)) (rev_ne leaf stack) s q) as (A1 & A2 & A3 & A4).
    cbv iota in A1, A2, A3, A4. rewrite path_of_leaf in *. fold P in A1, A2, A4. cbn [andb] in A4.
    set (b' := on_stack_node _ _ _ _ _ _) in *.
    pose proof (sym_ok_total_at s q Hs) as Ut.
    split; [exact A1|]. split; [rewrite A2, add64_0_r by auto; destruct (is_prefix q P); reflexivity|].
    split; [exact A3|].
    unfold has_pos, count_at, ninst_at, target_at, has_target in *. rewrite A4.
    replace (path_eqb P q) with (path_eqb q P)
      by (destruct (path_eqb_spec q P), (path_eqb_spec P q); congruence).
    replace (off =? l) with (l =? off) by lia.
    destruct (path_eqb_spec q P) as [->|Hq]; cbn [andb]; [|rewrite orb_false_r; repeat split].
    destruct (Z.eqb_spec l off) as [->|Hl]; cbn [andb]; [|rewrite orb_false_r; repeat split].
    destruct (pos_at s P off) as [i|] eqn:E; [|discriminate].
    cbn [p_count p_ninst p_targets]. unfold tget. rewrite aget_aset by apply name_eqb_spec.
    replace (name_eqb (orig t0) t) with (name_eqb t (orig t0))
      by (destruct (name_eqb_spec (orig t0) t), (name_eqb_spec t (orig t0)); congruence).
    destruct (name_eqb t (orig t0)); repeat split; rewrite ?orb_true_r, ?orb_false_r; reflexivity.
  Qed.

  Lemma eff_targets_adds stack leaf ts : forall s, sym_ok s ->
    Forall (fun tc => is_u64 (snd tc)) ts ->
    let P := path_of (si_func leaf) stack in let off := si_offset base leaf in
    has_pos s P off = true -> has_node s P = true ->
    sym_ok (eff_targets stack leaf ts s) /\
    forall q l t, let b := eff_targets stack leaf ts s in
      let w := if path_eqb P q && (off =? l) then map snd (filter (fun tc => name_eqb (orig (fst tc)) t) ts) else [] in
      has_node b q = has_node s q /\
      total_at b q = total_at s q /\ head_at b q = head_at s q /\
      has_pos b q l = has_pos s q l /\
      count_at b q l = count_at s q l /\ ninst_at b q l = ninst_at s q l /\
      target_at b q l t = last w (target_at s q l t) /\
      has_target b q l t = has_target s q l t || nonempty w.
  Proof.
    assert (Pre : forall s q r, has_node s r = true -> is_prefix q r = true -> has_node s q = true).
    { intros s q r. revert s r. induction q as [|k q IH]; intros s r N I; [reflexivity|].
      destruct r as [|k' r]; [discriminate|]. cbn [is_prefix] in I. apply andb_prop in I as [E I].
      destruct (callsite_eqb_spec k k') as [<-|]; [|discriminate].
      unfold has_node in *. cbn [node_at] in *. destruct (aget callsite_eqb k (s_calls s)); [|discriminate].
      apply (IH s0 r N I). }
    induction ts as [|[t0 c] ts IH]; intros s Hs F P off Hp Hn.
    - split; [exact Hs|]. intros q l t. cbn [AfdoReadProofs.eff_targets fold_left filter map].
      replace (if path_eqb P q && (off =? l) then @nil Z else []) with (@nil Z) by (destruct (_ && _); reflexivity).
      cbn [last nonempty]. rewrite orb_false_r. repeat split.
    - inversion F as [|? ? U F']; subst. cbn [snd] in U.
      change (eff_targets stack leaf ((t0, c) :: ts) s) with (eff_targets stack leaf ts (act_target stack leaf t0 c s)).
      pose proof (act_target_adds stack leaf t0 c s Hs) as A. cbv zeta in A. fold P off in A. specialize (A Hp).
      set (s1 := act_target stack leaf t0 c s) in *.
      assert (Hs1 : sym_ok s1) by (apply act_target_ok; auto).
      assert (Hp1 : has_pos s1 P off = true) by (destruct (A P off []) as (_ & _ & _ & -> & _); exact Hp).
      assert (Hn1 : has_node s1 P = true) by (destruct (A P off []) as (-> & _); rewrite Hn; reflexivity).
      destruct (IH s1 Hs1 F' Hp1 Hn1) as [Ok2 B]. fold P off in B. split; [exact Ok2|].
      intros q l t. destruct (A q l t) as (A1 & A2 & A3 & A4 & A5 & A6 & A7 & A8).
      destruct (B q l t) as (B1 & B2 & B3 & B4 & B5 & B6 & B7 & B8). cbv zeta in *.
      rewrite B1, A1, B2, A2, B3, A3, B4, A4, B5, A5, B6, A6, B7, A7, B8, A8.
      split. { destruct (is_prefix q P) eqn:I; [|apply orb_false_r]. rewrite (Pre s q P Hn I). reflexivity. }
      repeat (split; [reflexivity|]).
      destruct (path_eqb P q && (off =? l)); cbn [andb last filter fst snd].
      + destruct (name_eqb (orig t0) t); cbn [map snd nonempty].
        * split; [destruct (map snd (filter _ ts)) eqn:E; [reflexivity|]|rewrite !orb_true_r; reflexivity].
          change (last (z :: l0) c = last (c :: z :: l0) (target_at s q l t)).
          change (last (c :: z :: l0) (target_at s q l t)) with (last (z :: l0) (target_at s q l t)).
          clear. revert z. induction l0 as [|w l0 IH]; intros z; [reflexivity|]. cbn [last] in *. apply IH.
        * rewrite orb_false_r. split; reflexivity.
      + rewrite !orb_false_r. split; reflexivity.
  Qed.

  Definition eff_rec (stack : list sinfo) (leaf : sinfo) (c : Z) (ts : list (name * Z)) (s : symbol) :=
    eff_targets stack leaf ts (act_count stack leaf c s).

  Lemma eff_rec_adds stack leaf c ts s : sym_ok s -> is_u64 c -> Forall (fun tc => is_u64 (snd tc)) ts ->
    sym_ok (eff_rec stack leaf c ts s) /\
    adds [SRec (path_of (si_func leaf) stack) (si_offset base leaf) c ts] s (eff_rec stack leaf c ts s).
  Proof.
    intros Hs Hc Ht. unfold eff_rec.
    set (P := path_of (si_func leaf) stack). set (off := si_offset base leaf).
    pose proof (act_count_adds stack leaf c s Hs) as A. fold P off in A.
    pose proof (act_count_ok stack leaf c s Hc Hs) as Hs1.
    set (s1 := act_count stack leaf c s) in *.
    assert (Px : path_eqb P P = true) by (destruct (path_eqb_spec P P); congruence).
    assert (Hp : has_pos s1 P off = true).
    { destruct (A P off []) as (_ & _ & _ & -> & _). unfold at_pl. cbn [filter r_path r_loc].
      rewrite Px, Z.eqb_refl. apply orb_true_r. }
    assert (Hn : has_node s1 P = true).
    { destruct (A P off []) as (-> & _). cbn [filter r_path]. rewrite is_prefix_refl. apply orb_true_r. }
    destruct (eff_targets_adds stack leaf ts s1 Hs1 Ht Hp Hn) as [Ok2 B]. split; [exact Ok2|].
    intros q l t. destruct (A q l t) as (A1 & A2 & A3 & A4 & A5 & A6 & A7 & A8).
    destruct (B q l t) as (B1 & B2 & B3 & B4 & B5 & B6 & B7 & B8). fold P off in B7, B8. cbv zeta in *.
    rewrite B1, A1, B2, A2, B3, A3, B4, A4, B5, A5, B6, A6, B7, A7, B8, A8.
    unfold at_pl in *. cbn [filter r_path r_loc] in *.
    destruct (path_eqb P q && (off =? l)); cbn [andb];
      (split; [destruct (is_prefix q P); reflexivity|]);
      (split; [destruct (is_prefix q P); reflexivity|]); repeat (split; [reflexivity|]);
      cbn [LlvmReadSpec.target_counts flat_map r_targets map filter last app nonempty];
      rewrite ?app_nil_r, ?orb_false_r; repeat split.
  Qed.

  (** the body of a function *)
  Definition eff_body (n : name) (stack : list sinfo) (body : list ((Z * Z) * (Z * list (name * Z)))) (s : symbol) :=
    fold_left (fun s x => eff_rec stack (frame n (fst x)) (fst (snd x)) (snd (snd x)) s) body s.
  Fixpoint eff_fun (stack : list sinfo) (f : fsamples) (s : symbol) {struct f} : symbol :=
    match f with
    | FS n _ _ body calls =>
        (fix go (l : list ((Z * Z) * fsamples)) (s : symbol) : symbol :=
           match l with
           | [] => s
           | (ld, g) :: l' => go l' (eff_fun (frame n ld :: stack) g s)
           end) calls (eff_body n stack body s)
    end.
  Definition eff_callees (n : name) (stack : list sinfo) (calls : list ((Z * Z) * fsamples)) (s : symbol) :=
    fold_left (fun s x => eff_fun (frame n (fst x) :: stack) (snd x) s) calls s.
  Lemma eff_fun_eq stack n h t body calls s :
    eff_fun stack (FS n h t body calls) s = eff_callees n stack calls (eff_body n stack body s).
  Proof.
    cbn [eff_fun]. unfold eff_callees. generalize (eff_body n stack body s).
    induction calls as [|[ld g] l IH]; intros x; [reflexivity|]. cbn [fold_left fst snd]. apply IH.
  Qed.

  Definition rec_ok (r : srec) : Prop :=
    is_u64 (r_count r) /\ Forall (fun tc => is_u64 (snd tc)) (r_targets r).

  Lemma eff_body_adds n stack body : forall s, sym_ok s ->
    let rs := map (fun x => SRec (path_of n stack) (loc_of base (fst x)) (fst (snd x)) (snd (snd x))) body in
    Forall rec_ok rs -> sym_ok (eff_body n stack body s) /\ adds rs s (eff_body n stack body s).
  Proof.
    induction body as [|[ld [c ts]] body IH]; intros s Hs rs F.
    - split; [exact Hs|]. apply adds_nil. exact Hs.
    - unfold rs in *. cbn [map fst snd] in *. inversion F as [|? ? [U1 U2] F']; subst. cbn [r_count r_targets] in *.
      destruct (eff_rec_adds stack (frame n ld) c ts s Hs U1 U2) as [Ok1 A1].
      rewrite si_offset_frame in A1. cbn [frame si_func] in A1.
      destruct (IH _ Ok1 F') as [Ok2 A2].
      split; [exact Ok2|]. exact (adds_app orig [_] _ s _ _ A1 A2).
  Qed.

  Lemma fsamples_ind' (Q : fsamples -> Prop) :
    (forall n h t body calls, (forall ld g, In (ld, g) calls -> Q g) -> Q (FS n h t body calls)) -> forall f, Q f.
  Proof.
    intros H. fix IH 1. intros [n h t body calls]. apply H.
    induction calls as [|[ld' g'] calls IHc]; intros ld g I; [destruct I|].
    destruct I as [E|I]; [|exact (IHc ld g I)]. assert (X : g' = g) by congruence. rewrite <- X. apply IH.
  Qed.

  Lemma eff_fun_adds f : forall stack s, sym_ok s ->
    let rs := srecs base (path_of (fs_name f) stack) f in
    Forall rec_ok rs -> sym_ok (eff_fun stack f s) /\ adds rs s (eff_fun stack f s).
  Proof.
    induction f as [n h t body calls IH] using fsamples_ind'. intros stack s Hs rs F.
    unfold rs in *. clear rs. cbn [srecs fs_name] in *. rewrite eff_fun_eq.
    apply Forall_app in F as [F1 F2].
    destruct (eff_body_adds n stack body s Hs F1) as [Ok1 A1]. set (s1 := eff_body n stack body s) in *.
    assert (G : forall cs, (forall x, In x cs -> In x calls) -> forall s1, sym_ok s1 ->
      let rs := flat_map (fun x => match snd x with FS callee _ _ _ _ =>
                  srecs base (path_of n stack ++ [(loc_of base (fst x), callee)]) (snd x) end) cs in
      Forall rec_ok rs -> sym_ok (eff_callees n stack cs s1) /\ adds rs s1 (eff_callees n stack cs s1)).
    { clear - IH. induction cs as [|[ld g] cs IHc]; intros Inc s1 Hs1 rs F.
      - split; [exact Hs1|]. apply adds_nil. exact Hs1.
      - unfold rs in *. clear rs. cbn [flat_map fst snd] in *. apply Forall_app in F as [F1 F2].
        assert (E : match g with FS callee _ _ _ _ => srecs base (path_of n stack ++ [(loc_of base ld, callee)]) g end
                    = srecs base (path_of (fs_name g) (frame n ld :: stack)) g).
        { rewrite path_of_nested, si_offset_frame. destruct g; reflexivity. }
        rewrite E in *.
        destruct (IH ld g (Inc _ (or_introl eq_refl)) (frame n ld :: stack) s1 Hs1 F1) as [Ok1 A1].
        destruct (IHc (fun x I => Inc x (or_intror I)) _ Ok1 F2) as [Ok2 A2].
        split; [exact Ok2|]. exact (adds_app orig _ _ s1 _ _ A1 A2). }
    destruct (G calls (fun x I => I) s1 Ok1 F2) as [Ok2 A2].
    split; [exact Ok2|]. exact (adds_app orig _ _ s _ _ A1 A2).
  Qed.

  (** *** The model performs these effects *)
  Lemma top_name_nested n ld callee stack : top_name callee (frame n ld :: stack) = top_name n stack.
  Proof.
    unfold top_name. cbn [rev]. destruct (rev stack); reflexivity.
  Qed.

  Lemma read_targets_holds m0 top stack leaf ts : forall m cur, holds m0 top cur m ->
    exists m', read_targets base orig top (leaf :: stack) ts m = Ok m' /\
      holds m0 top (eff_targets stack leaf ts cur) m'.
  Proof.
    induction ts as [|[t c] ts IH]; intros m cur H; [exists m; split; [reflexivity|exact H]|].
    cbn [read_targets]. unfold AddIndirectCallTarget.
    destruct (holds_step m0 top cur m (act_target stack leaf t c) H) as (m1 & U1 & H1).
    unfold AfdoReadProofs.act_target in U1. cbn [andb]. 
    change (sm_update top (on_stack_node base false 0 (fun s : symbol => set_pos (si_offset base leaf)
               (fun p : pinfo => PInfo (p_count p) (p_ninst p) (aset name_eqb (orig t) c (p_targets p))) s)
            (rev (leaf :: stack))) m = Ok m1) in U1.
    rewrite U1. cbn [obind]. destruct (IH m1 _ H1) as (m' & A & B). exists m'. split; [exact A|exact B].
  Qed.

  Lemma read_samples_holds m0 n stack body : forall m cur, holds m0 (top_name n stack) cur m ->
    exists m', read_samples base orig n stack body m = Ok m' /\
      holds m0 (top_name n stack) (eff_body n stack body cur) m'.
  Proof.
    induction body as [|[ld [c ts]] body IH]; intros m cur H; [exists m; split; [reflexivity|exact H]|].
    cbn [read_samples]. unfold AddSourceCount.
    destruct (holds_step m0 _ cur m (act_count stack (frame n ld) c) H) as (m1 & U1 & H1).
    unfold AfdoReadProofs.act_count in U1. cbn [andb].
    match goal with |- context [sm_update ?a ?f m] => change (sm_update a f m = Ok m1) in U1 end.
    rewrite U1. cbn [obind].
    destruct (read_targets_holds m0 _ stack (frame n ld) ts m1 _ H1) as (m2 & E2 & H2).
    rewrite E2. cbn [obind]. destruct (IH m2 _ H2) as (m' & A & B). exists m'. split; [exact A|exact B].
  Qed.

  Definition read_callees (n : name) (stack : list sinfo) :=
    fix go (l : list ((Z * Z) * fsamples)) (m : smap) : outcome smap :=
      match l with
      | [] => Ok m
      | (ld, g) :: l' => let! m := read_function base orig (frame n ld :: stack) g m in go l' m
      end.

  Lemma read_nested_holds f : forall stack m0 m cur, stack <> [] ->
    holds m0 (top_name (fs_name f) stack) cur m ->
    exists m', read_function base orig stack f m = Ok m' /\
      holds m0 (top_name (fs_name f) stack) (eff_fun stack f cur) m'.
  Proof.
    induction f as [n h t body calls IH] using fsamples_ind'. intros stack m0 m cur Ne H.
    cbn [fs_name] in *. rewrite eff_fun_eq. cbn [read_function].
    destruct stack as [|i stack]; [congruence|]. cbn [obind].
    destruct (read_samples_holds m0 n (i :: stack) body m cur H) as (m1 & E1 & H1).
    rewrite E1. cbn [obind]. change (fix go (l : list ((Z * Z) * fsamples)) (m : smap) : outcome smap := _)
      with (read_callees n (i :: stack)).
    assert (G : forall cs, (forall x, In x cs -> In x calls) -> forall m cur,
      holds m0 (top_name n (i :: stack)) cur m ->
      exists m', read_callees n (i :: stack) cs m = Ok m' /\
        holds m0 (top_name n (i :: stack)) (eff_callees n (i :: stack) cs cur) m').
    { clear - IH. induction cs as [|[ld g] cs IHc]; intros Inc m cur H; [exists m; split; [reflexivity|exact H]|].
      cbn [read_callees].
      destruct (IH ld g (Inc _ (or_introl eq_refl)) (frame n ld :: i :: stack) m0 m cur) as (m1 & E1 & H1);
        [discriminate|rewrite top_name_nested; exact H|].
      rewrite E1. cbn [obind]. rewrite top_name_nested in H1.
      destruct (IHc (fun x I => Inc x (or_intror I)) m1 _ H1) as (m' & A & B).
      exists m'. split; [exact A|exact B]. }
    destruct (G calls (fun x I => I) m1 _ H1) as (m2 & E2 & H2).
    rewrite E2. cbn [obind]. exists m2. split; [reflexivity|exact H2].
  Qed.
End Function.
