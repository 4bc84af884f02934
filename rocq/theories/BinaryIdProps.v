(** Properties C51 (identifying the binary) and C52 (kernel module info). *)
From Verif Require Import Base SymbolModel SymbolProofs BinaryIdModel.
From Coq Require Import Permutation.

(** ** C51 *)
Definition bytes (l : list Z) : Prop := Forall is_byte l.
Lemma nibbles b : is_byte b -> 0 <= Z.land (Z.shiftr b 4) 15 < 16 /\ 0 <= Z.land b 15 < 16 /\
  b = 16 * Z.land (Z.shiftr b 4) 15 + Z.land b 15.
Proof.
  unfold is_byte. intros H. change 15 with (Z.ones 4). rewrite !Z.land_ones by lia. rewrite Z.shiftr_div_pow2 by lia.
  change (2 ^ 4) with 16. pose proof (Z.mod_pos_bound b 16). pose proof (Z.mod_pos_bound (b / 16) 16).
  pose proof (Z.div_mod b 16). rewrite (Z.mod_small (b / 16)) by (split; [apply Z.div_pos; lia|apply Z.div_lt_upper_bound; lia]). lia.
Qed.
Lemma digit_same v : 0 <= v < 16 -> nth (Z.to_nat v) heximal 0 = hex_to_char v.
Proof.
  intros H. assert (C : v = 0 \/ v = 1 \/ v = 2 \/ v = 3 \/ v = 4 \/ v = 5 \/ v = 6 \/ v = 7 \/ v = 8 \/ v = 9 \/ v = 10 \/ v = 11 \/ v = 12 \/ v = 13 \/ v = 14 \/ v = 15) by lia.
  repeat (destruct C as [->|C]; [reflexivity|]). subst. reflexivity.
Qed.
Lemma hex_inj a b : 0 <= a < 16 -> 0 <= b < 16 -> hex_to_char a = hex_to_char b -> a = b.
Proof. unfold hex_to_char. intros. destruct (Z.ltb_spec a 10), (Z.ltb_spec b 10); lia. Qed.

(** The text of a build id is the same whether it is read from the binary or
    from the profile, and determines the build id. *)
Theorem C51_same_text id : bytes id -> BinaryDataToAscii id = build_id_str id.
Proof.
  induction 1 as [|b id Hb _ IH]; cbn [BinaryDataToAscii build_id_str]; [reflexivity|].
  destruct (nibbles b Hb) as [H1 [H2 _]]. rewrite !digit_same by assumption. rewrite IH. reflexivity.
Qed.
Print Assumptions C51_same_text.
Theorem C51_injective a b : bytes a -> bytes b -> build_id_str a = build_id_str b -> a = b.
Proof.
  intros Ha. revert b. induction Ha as [|x a Hx _ IH]; intros b Hb; destruct Hb as [|y b Hy Hb]; cbn [build_id_str]; try discriminate; [reflexivity|].
  intros E. injection E as E1 E2 E3. destruct (nibbles x Hx) as [A1 [A2 A3]]. destruct (nibbles y Hy) as [B1 [B2 B3]].
  apply hex_inj in E1; [|assumption..]. apply hex_inj in E2; [|assumption..]. rewrite (IH b Hb E3). f_equal. lia.
Qed.
Print Assumptions C51_injective.

Lemma nmem_In n l : nmem n l = true <-> In n l.
Proof.
  induction l as [|x l IH]; cbn [nmem In]; [intuition discriminate|].
  rewrite orb_true_iff, IH. destruct (name_eqb_spec n x); intuition congruence.
Qed.
Definition anonymous (f : name) : Prop := exists t, f = anon_hugepage ++ t \/ f = anon_prefix ++ t.
Lemma starts_with_spec n pre : starts_with n pre = true <-> exists t, n = pre ++ t.
Proof.
  revert n. induction pre as [|p pre IH]; intros n; cbn [starts_with app].
  { split; [intros _; exists n; reflexivity|reflexivity]. }
  destruct n as [|c n]; [split; [discriminate|intros [t H]; discriminate H]|].
  rewrite andb_true_iff, IH. split.
  - intros [H [t ->]]. exists t. f_equal. lia.
  - intros [t H]. injection H as -> ->. split; [lia|eauto].
Qed.
(** The file names found for a build id are exactly the names of the records
    with these bytes, except empty and anonymous ones; if there are none, an
    error is returned. *)
Theorem C51_names records id :
  bytes id -> (forall f h, In (f, Some h) records -> bytes h) ->
  let qualifies f := In (Some f, Some id) records /\ f <> [] /\ ~ anonymous f in
  match GetBuildIdNames records (build_id_str id) with
  | Some l => l <> [] /\ NoDup l /\ forall f, In f l <-> qualifies f
  | None => forall f, ~ qualifies f
  end.
Proof.
  intros Hid Hrec qualifies. unfold GetBuildIdNames.
  set (q := fun (recs : list (option name * option (list Z))) f => In (Some f, Some id) recs /\ f <> [] /\ ~ anonymous f).
  assert (G : forall recs acc, (forall f h, In (f, Some h) recs -> bytes h) -> NoDup acc ->
    NoDup (fold_left (build_id_step (build_id_str id)) recs acc) /\
    forall f, In f (fold_left (build_id_step (build_id_str id)) recs acc) <-> In f acc \/ q recs f).
  { induction recs as [|[of oh] recs IH]; intros acc Hr Hn; cbn [fold_left].
    - split; [exact Hn|]. intros f. unfold q. cbn [In]. tauto.
    - assert (S0 : NoDup (build_id_step (build_id_str id) acc (of, oh)) /\
        forall f, In f (build_id_step (build_id_str id) acc (of, oh)) <->
                  In f acc \/ ((of, oh) = (Some f, Some id) /\ f <> [] /\ ~ anonymous f)).
      { unfold build_id_step. destruct of as [g|]; [|split; [exact Hn|intros; intuition congruence]].
        destruct oh as [h|]; [|split; [exact Hn|intros; intuition congruence]].
        assert (Hh : bytes h) by (eapply Hr; left; reflexivity).
        destruct (name_eqb_spec (BinaryDataToAscii h) (build_id_str id)) as [E|E].
        2: { split; [exact Hn|]. intros f. split; [auto|]. intros [H|[H _]]; [exact H|]. injection H as -> ->.
             rewrite C51_same_text in E by exact Hid. congruence. }
        rewrite C51_same_text in E by exact Hh. apply C51_injective in E; [|assumption..]. subst h.
        destruct g as [|c g]; [split; [exact Hn|]; intros f; split; [auto|]; intros [H|[H [H2 _]]]; [exact H|congruence]|].
        set (f0 := c :: g) in *.
        assert (AN : starts_with f0 anon_hugepage || starts_with f0 anon_prefix = true <-> anonymous f0).
        { rewrite orb_true_iff, !starts_with_spec. unfold anonymous. split.
          - intros [[t H]|[t H]]; exists t; auto.
          - intros [t [H|H]]; eauto. }
        destruct (starts_with f0 anon_hugepage || starts_with f0 anon_prefix).
        - split; [exact Hn|]. intros f. split; [auto|]. intros [H|[H [_ H2]]]; [exact H|]. injection H as <-. destruct H2. apply AN. reflexivity.
        - assert (NA : ~ anonymous f0) by (intros X; apply AN in X; discriminate).
          unfold ninsert. destruct (nmem f0 acc) eqn:M.
          + apply nmem_In in M. split; [exact Hn|]. intros f. split; [auto|]. intros [H|[H _]]; [exact H|]. injection H as <-. exact M.
          + assert (NI : ~ In f0 acc) by (intros X; apply nmem_In in X; congruence).
            split.
            * apply (Permutation_NoDup (l := f0 :: acc)); [apply Permutation_cons_append|constructor; assumption].
            * intros f. rewrite in_app_iff. cbn [In]. split.
              -- intros [H|[<-|[]]]; [auto|]. right. split; [reflexivity|]. split; [discriminate|exact NA].
              -- intros [H|[H _]]; [auto|]. injection H as <-. auto. }
      destruct S0 as [S1 S2].
      destruct (IH (build_id_step (build_id_str id) acc (of, oh))) as [I1 I2]; [intros; eapply Hr; right; eassumption|exact S1|].
      split; [exact I1|]. intros f. rewrite I2, S2. unfold q. cbn [In]. tauto. }
  destruct (G records [] Hrec (NoDup_nil _)) as [G1 G2].
  destruct (fold_left (build_id_step (build_id_str id)) records []) as [|x l] eqn:E.
  - intros f Hf. apply (proj2 (G2 f)). right. exact Hf.
  - split; [discriminate|]. split; [exact G1|]. intros f. rewrite G2. cbn [In]. unfold q. split; [intros [[]|H]; exact H|auto].
Qed.
Print Assumptions C51_names.

(** Matching mmap file names.  If the wanted names are all absolute, a map is
    selected iff its name is one of them; if none is absolute (and they are not
    the kernel's), iff its last path component is that of one of them; the order
    of the set does not matter. *)
Theorem C51_match_absolute is_absolute filename names f :
  names <> [] -> (forall n, In n names -> is_absolute n = true) -> names <> [kallsyms] ->
  MMapSelector is_absolute filename names f = true <-> In f names.
Proof.
  intros Hne Ha Hk. destruct names as [|n names]; [congruence|]. unfold MMapSelector.
  assert (K : (length (n :: names) =? 1)%nat && name_eqb n kallsyms = false).
  { destruct names as [|? ?]; [|reflexivity]. cbn [length Nat.eqb andb]. destruct (name_eqb_spec n kallsyms); congruence. }
  rewrite K, (Ha n (or_introl eq_refl)). apply nmem_In.
Qed.
Print Assumptions C51_match_absolute.
Theorem C51_match_relative is_absolute filename names f :
  names <> [] -> (forall n, In n names -> is_absolute n = false) -> names <> [kallsyms] ->
  MMapSelector is_absolute filename names f = true <-> exists n, In n names /\ filename f = filename n.
Proof.
  intros Hne Ha Hk. destruct names as [|n names]; [congruence|]. unfold MMapSelector.
  assert (K : (length (n :: names) =? 1)%nat && name_eqb n kallsyms = false).
  { destruct names as [|? ?]; [|reflexivity]. cbn [length Nat.eqb andb]. destruct (name_eqb_spec n kallsyms); congruence. }
  rewrite K, (Ha n (or_introl eq_refl)), nmem_In, in_map_iff. split; intros [x [H1 H2]]; exists x; auto.
Qed.
Print Assumptions C51_match_relative.
Theorem C51_match_kernel is_absolute filename f :
  MMapSelector is_absolute filename [kallsyms] f = true <-> f = kallsyms \/ f = kallsyms_text \/ f = kallsyms_stext.
Proof.
  unfold MMapSelector. cbn [length Nat.eqb andb]. destruct (name_eqb_spec kallsyms kallsyms); [|congruence].
  rewrite nmem_In. cbn [In]. intuition congruence.
Qed.
Print Assumptions C51_match_kernel.

(** With absolute and relative names mixed, the decision depends on which name
    the hash set happens to list first. *)
Definition slash_first (n : name) : bool := match n with 47 :: _ => true | _ => false end.
Fixpoint last_component (acc n : name) : name :=
  match n with [] => rev acc | c :: n' => if c =? 47 then last_component [] n' else last_component (c :: acc) n' end.
Theorem C51_mixed_names_refuted :
  exists names names' f, Permutation names names' /\
    MMapSelector slash_first (last_component []) names f = true /\
    MMapSelector slash_first (last_component []) names' f = false.
Proof.
  exists [[98]; [47; 97]], [[47; 97]; [98]], [47; 120; 47; 97].
  split; [apply perm_swap|]. split; vm_compute; reflexivity.
Qed.
Print Assumptions C51_mixed_names_refuted.

(** Any note of vendor GNU in the section is taken for the build id, whatever
    its type (3 is NT_GNU_BUILD_ID). *)
Theorem C51_note_type_refuted :
  exists sections, GetBuildId sections = build_id_str [0; 1] /\
    flat_map (fun s => map nt_desc (filter (fun t => nt_type t =? 3) (sc_notes s))) sections = [[171; 205]].
Proof.
  exists [Section_ true (Some kernel_build_id_section) [Note gnu 1 [0; 1]; Note gnu 3 [171; 205]]].
  split; vm_compute; reflexivity.
Qed.
Print Assumptions C51_note_type_refuted.
(** With a single GNU note in the sections looked at, its descriptor is what
    is returned. *)
Theorem C51_build_id sections s t :
  In s sections -> sc_is_note s = true ->
  (sc_name s = Some build_id_section \/ sc_name s = Some kernel_build_id_section) ->
  In t (sc_notes s) -> nt_name t = gnu ->
  (forall s' t', In s' sections -> sc_is_note s' = true ->
     (sc_name s' = Some build_id_section \/ sc_name s' = Some kernel_build_id_section) ->
     In t' (sc_notes s') -> nt_name t' = gnu -> nt_desc t' = nt_desc t) ->
  GetBuildId sections = build_id_str (nt_desc t).
Proof.
  intros Hs Hn Hname Ht Hg Huni. unfold GetBuildId.
  assert (ALL : forall b, In b (flat_map section_build_ids sections) -> b = build_id_str (nt_desc t)).
  { intros b Hb. apply in_flat_map in Hb as [s' [Hs' Hb]]. unfold section_build_ids in Hb.
    destruct (sc_name s') as [n|] eqn:En; [|destruct Hb].
    destruct (sc_is_note s') eqn:Eo; cbn [andb] in Hb; [|destruct Hb].
    destruct (name_eqb n build_id_section || name_eqb n kernel_build_id_section) eqn:Em; [|destruct Hb].
    apply in_map_iff in Hb as [t' [<- Hb]]. apply filter_In in Hb as [Hb Hg'].
    f_equal. apply (Huni s' t'); auto.
    - rewrite En. destruct (name_eqb_spec n build_id_section) as [->|]; [auto|]. destruct (name_eqb_spec n kernel_build_id_section) as [->|]; [auto|discriminate].
    - destruct (name_eqb_spec (nt_name t') gnu); congruence. }
  assert (IN : In (build_id_str (nt_desc t)) (flat_map section_build_ids sections)).
  { apply in_flat_map. exists s. split; [exact Hs|]. unfold section_build_ids.
    assert (C : forall n, sc_name s = Some n -> name_eqb n build_id_section || name_eqb n kernel_build_id_section = true).
    { intros n E. apply orb_true_iff. destruct Hname as [H|H]; rewrite H in E; injection E as <-; [left|right]; vm_compute; reflexivity. }
    destruct (sc_name s) as [n|]; [|destruct Hname; discriminate]. rewrite Hn, (C n eq_refl). cbn [andb].
    apply in_map_iff. exists t. split; [reflexivity|]. apply filter_In. split; [exact Ht|]. rewrite Hg. vm_compute. reflexivity. }
  destruct (flat_map section_build_ids sections) as [|b l]; [destruct IN|]. apply ALL. left. reflexivity.
Qed.
Print Assumptions C51_build_id.
Example C51_nonvacuous :
  GetBuildId [Section_ true (Some [46]) [Note gnu 3 [9]]; Section_ true (Some build_id_section) [Note [65] 3 [1]; Note gnu 3 [171; 5]]]
    = [97; 98; 48; 53] /\
  GetBuildIdNames [(Some [47; 97], Some [171; 5]); (Some [47; 98], Some [171; 6]); (Some [], Some [171; 5]);
                   (None, Some [171; 5]); (Some (anon_prefix ++ [98]), Some [171; 5]); (Some [47; 99], Some [171; 5]);
                   (Some [47; 97], Some [171; 5])] (build_id_str [171; 5])
    = Some [[47; 97]; [47; 99]] /\ bytes [171; 5].
Proof.
  split; [vm_compute; reflexivity|]. split; [vm_compute; reflexivity|]. repeat constructor; unfold is_byte; lia.
Qed.

(** ** C52: a .modinfo section is a sequence of key=value strings, each ended
    by one or more NUL bytes. *)
Definition no_byte (c : Z) (l : list Z) : Prop := ~ In c l.
Record entry := Entry { en_key : name; en_value : name; en_extra : nat }.
Definition entry_ok (e : entry) : Prop :=
  en_key e <> [] /\ no_byte 0 (en_key e) /\ no_byte 61 (en_key e) /\ no_byte 0 (en_value e).
Definition entry_bytes (e : entry) : list Z :=
  en_key e ++ 61 :: en_value e ++ 0 :: repeat 0 (en_extra e).
Definition section_bytes (es : list entry) : list Z := flat_map entry_bytes es.
(** The value of a key is that of its first entry. *)
Definition value_of (k : name) (es : list entry) : option name :=
  option_map en_value (find (fun e => name_eqb k (en_key e)) es).

Lemma upto_app c a b : no_byte c a -> upto c (a ++ c :: b) = (a, c :: b).
Proof.
  unfold no_byte. induction a as [|x a IH]; cbn [app upto In]; intros H; [rewrite Z.eqb_refl; reflexivity|].
  destruct (Z.eqb_spec x c); [exfalso; apply H; left; congruence|]. rewrite IH by tauto. reflexivity.
Qed.
Lemma upto_spec c l a b : upto c l = (a, b) -> l = a ++ b /\ no_byte c a /\ (b = [] \/ exists b', b = c :: b').
Proof.
  unfold no_byte. revert a b. induction l as [|x l IH]; intros a b; cbn [upto].
  - intros H; injection H as <- <-. split; [reflexivity|]. split; [intros []|left; reflexivity].
  - destruct (Z.eqb_spec x c) as [->|Hx].
    + intros H; injection H as <- <-. split; [reflexivity|]. split; [intros []|right; eauto].
    + destruct (upto c l) as [a' b'] eqn:E. intros H; injection H as <- <-. destruct (IH a' b' eq_refl) as [H1 [H2 H3]].
      split; [rewrite H1; reflexivity|]. split; [|exact H3]. intros [H|H]; [congruence|auto].
Qed.
Lemma skip_nuls_spec l : exists n r, l = repeat 0 n ++ r /\ skip_nuls l = r /\ (r = [] \/ exists x r', r = x :: r' /\ x <> 0).
Proof.
  induction l as [|x l IH]; cbn [skip_nuls]; [exists 0%nat, []; auto|].
  destruct (Z.eqb_spec x 0) as [->|Hx].
  - destruct IH as [n [r [H1 [H2 H3]]]]. exists (S n), r. split; [cbn; rewrite <- H1; reflexivity|auto].
  - exists 0%nat, (x :: l). split; [reflexivity|]. split; [reflexivity|right; eauto].
Qed.
Lemma skip_repeat n r : (r = [] \/ exists x r', r = x :: r' /\ x <> 0) -> skip_nuls (repeat 0 n ++ r) = r.
Proof.
  intros H. induction n as [|n IH]; cbn [repeat app skip_nuls]; [|exact IH].
  destruct H as [->|[x [r' [-> Hx]]]]; [reflexivity|]. cbn [skip_nuls]. destruct (Z.eqb_spec x 0); [congruence|reflexivity].
Qed.
Lemma section_start es : Forall entry_ok es -> section_bytes es = [] \/ exists x r, section_bytes es = x :: r /\ x <> 0.
Proof.
  intros [|e es' He _]; [left; reflexivity|]. right. destruct He as [H1 [H2 _]]. unfold section_bytes. cbn [flat_map].
  unfold entry_bytes. destruct (en_key e) as [|x k]; [congruence|]. cbn [app]. eexists x, _. split; [reflexivity|].
  intros ->. apply H2. left. reflexivity.
Qed.
Definition add_entry (m : list (name * name)) (e : entry) : list (name * name) := emplace (en_key e) (en_value e) m.
Lemma loop_complete es : Forall entry_ok es -> forall fuel m, (length (section_bytes es) <= fuel)%nat ->
  modinfo_loop fuel (section_bytes es) m = inl (fold_left add_entry es m).
Proof.
  induction 1 as [|e es He Hes IH]; intros fuel m Hf.
  - destruct fuel; reflexivity.
  - destruct He as [Hk [Hk0 [Hk1 Hv0]]].
    assert (E : section_bytes (e :: es) = (en_key e ++ 61 :: en_value e) ++ 0 :: (repeat 0 (en_extra e) ++ section_bytes es)).
    { unfold section_bytes. cbn [flat_map]. unfold entry_bytes. rewrite <- !app_assoc. cbn [app]. rewrite <- !app_assoc. reflexivity. }
    rewrite E in *. destruct fuel as [|fuel]; [rewrite app_length in Hf; cbn [length] in Hf; lia|].
    assert (N0 : no_byte 0 (en_key e ++ 61 :: en_value e)).
    { intros H. apply in_app_or in H as [H|[H|H]]; [exact (Hk0 H)|lia|exact (Hv0 H)]. }
    cbn [modinfo_loop].
    destruct ((en_key e ++ 61 :: en_value e) ++ 0 :: repeat 0 (en_extra e) ++ section_bytes es) as [|z zs] eqn:EZ;
      [apply (f_equal (@length Z)) in EZ; rewrite app_length in EZ; cbn in EZ; lia|]. rewrite <- EZ.
    rewrite (upto_app 0 _ _ N0).
    destruct (en_key e ++ 61 :: en_value e) as [|w ws] eqn:EW; [destruct (en_key e); discriminate|]. rewrite <- EW.
    rewrite (upto_app 61 _ _ Hk1). destruct (en_key e) as [|k0 k] eqn:EK; [congruence|]. rewrite <- EK.
    rewrite skip_repeat by (apply section_start; exact Hes).
    cbn [fold_left]. rewrite IH; [unfold add_entry at 3; rewrite EK; reflexivity|].
    apply (f_equal (@length Z)) in EZ. rewrite app_length in EZ. cbn [length] in *. rewrite app_length in EZ. cbn [length] in EZ. lia.
Qed.
Lemma loop_sound : forall fuel l m m', (length l <= fuel)%nat -> modinfo_loop fuel l m = inl m' ->
  exists es, Forall entry_ok es /\ l = section_bytes es /\ m' = fold_left add_entry es m.
Proof.
  induction fuel as [|fuel IH]; intros l m m' Hf; cbn [modinfo_loop].
  - destruct l; [|cbn in Hf; lia]. intros H; injection H as <-. exists []. auto.
  - destruct l as [|x0 l0]; [intros H; injection H as <-; exists []; auto|]. set (l := x0 :: l0) in *.
    destruct (upto 0 l) as [en rest] eqn:E1. apply upto_spec in E1 as [E1 [N1 R1]].
    destruct en as [|e0 en0]; [discriminate|]. set (en := e0 :: en0) in *.
    destruct rest as [|z after]; [discriminate|]. destruct R1 as [R1|[b' R1]]; [discriminate|]. injection R1 as -> ->.
    destruct (upto 61 en) as [key tail] eqn:E2. apply upto_spec in E2 as [E2 [N2 R2]].
    destruct tail as [|z value]; [discriminate|]. destruct R2 as [R2|[b2 R2]]; [discriminate|]. injection R2 as -> ->.
    destruct key as [|k0 key0]; [discriminate|]. set (key := k0 :: key0) in *.
    destruct (skip_nuls_spec b') as [n [r [S1 [S2 _]]]]. rewrite S2. intros H.
    assert (Hl : (length r <= fuel)%nat).
    { apply (f_equal (@length Z)) in E1. rewrite app_length in E1. cbn [length] in E1. rewrite S1, app_length in E1.
      assert (length en = S (length en0)) by reflexivity. lia. }
    destruct (IH r _ m' Hl H) as [es [H1 [H2 H3]]].
    exists (Entry key b2 n :: es). split; [|split].
    + constructor; [|exact H1]. unfold entry_ok; cbn [en_key en_value]. split; [discriminate|].
      rewrite E2 in N1. split; [intros X; apply N1; apply in_or_app; auto|]. split; [exact N2|].
      intros X; apply N1; apply in_or_app; right; right; exact X.
    + unfold section_bytes. cbn [flat_map]. fold (section_bytes es). unfold entry_bytes; cbn [en_key en_value en_extra].
      rewrite E1, E2, S1, <- H2. rewrite <- !app_assoc. cbn [app]. rewrite <- !app_assoc. reflexivity.
    + cbn [fold_left]. exact H3.
Qed.
Lemma aget_emplace k v m x : aget name_eqb x (emplace k v m) =
  match aget name_eqb x m with Some w => Some w | None => if name_eqb x k then Some v else None end.
Proof.
  unfold emplace. destruct (aget name_eqb k m) as [w|] eqn:E.
  - destruct (aget name_eqb x m) eqn:E2; [reflexivity|]. destruct (name_eqb_spec x k); [subst; congruence|reflexivity].
  - induction m as [|[a b] m IH]; cbn [app aget] in *; [reflexivity|].
    destruct (name_eqb x a) eqn:Ex; [reflexivity|]. apply IH. destruct (name_eqb k a); [discriminate|exact E].
Qed.
Lemma aget_fold es : forall m x, aget name_eqb x (fold_left add_entry es m) =
  match aget name_eqb x m with Some w => Some w | None => value_of x es end.
Proof.
  induction es as [|e es IH]; intros m x; cbn [fold_left]; [unfold value_of; cbn; destruct (aget name_eqb x m); reflexivity|].
  rewrite IH. unfold add_entry. rewrite aget_emplace. unfold value_of. cbn [find].
  destruct (aget name_eqb x m); [reflexivity|]. destruct (name_eqb x (en_key e)); reflexivity.
Qed.
Lemma emplace_nonempty k v m : emplace k v m <> [].
Proof.
  unfold emplace. destruct (aget name_eqb k m) eqn:E; [destruct m; [discriminate|discriminate]|]. destruct m; discriminate.
Qed.
Lemma fold_nonempty es m : m <> [] -> fold_left add_entry es m <> [].
Proof. revert m. induction es as [|e es IH]; intros m Hm; [exact Hm|]. apply IH. apply emplace_nonempty. Qed.

(** Every well-formed section is read back, the first value of each key
    counting, and nothing else is accepted. *)
Theorem C52_roundtrip es : es <> [] -> Forall entry_ok es ->
  exists m, ParseModInfoSectionContent (section_bytes es) = inl m /\
    forall k, aget name_eqb k m = value_of k es.
Proof.
  intros Hne Hes. exists (fold_left add_entry es []). split; [|intros k; rewrite aget_fold; reflexivity].
  unfold ParseModInfoSectionContent. rewrite loop_complete by auto.
  destruct es as [|e es]; [congruence|].
  destruct (section_bytes (e :: es)) as [|z zs] eqn:Es.
  - unfold section_bytes in Es. cbn [flat_map] in Es. unfold entry_bytes in Es. destruct (en_key e); discriminate.
  - destruct (fold_left add_entry (e :: es) []) as [|p m] eqn:Em; [|reflexivity].
    exfalso. cbn [fold_left] in Em. eapply fold_nonempty; [|exact Em]. apply emplace_nonempty.
Qed.
Print Assumptions C52_roundtrip.
Theorem C52_only_wellformed l m : ParseModInfoSectionContent l = inl m ->
  exists es, es <> [] /\ Forall entry_ok es /\ l = section_bytes es /\
    forall k, aget name_eqb k m = value_of k es.
Proof.
  unfold ParseModInfoSectionContent. destruct l as [|z zs]; [discriminate|].
  destruct (modinfo_loop (length (z :: zs)) (z :: zs) []) as [m1|e] eqn:E; [|discriminate].
  apply loop_sound in E as [es [H1 [H2 H3]]]; [|lia].
  intros H. assert (m1 = m) by (destruct m1; [discriminate|congruence]). subst m.
  exists es. split; [intros ->; discriminate|]. split; [exact H1|]. split; [exact H2|].
  intros k. rewrite H3, aget_fold. reflexivity.
Qed.
Print Assumptions C52_only_wellformed.
Example C52_nonvacuous :
  let es := [Entry [110] [97; 61; 98] 2; Entry [100] [] 0; Entry [110] [120] 0] in
  Forall entry_ok es /\ es <> [] /\
  ParseModInfoSectionContent (section_bytes es) = inl [([110], [97; 61; 98]); ([100], [])] /\
  ParseModInfoSectionContent [0; 110; 61; 97; 0] = inr MEmptyEntry.
Proof.
  cbv zeta. split.
  { repeat constructor; unfold entry_ok, no_byte; cbn; intuition lia || discriminate. }
  split; [discriminate|]. split; vm_compute; reflexivity.
Qed.
