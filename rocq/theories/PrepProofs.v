(** The handler of the inline stacks on the written entries. *)
From Verif Require Import Base ByteModel ByteSpec DwarfRangesModel DwarfRangesSpec DwarfRangesProps DwLineModel DwLineSpec DwLineProofs DwLineLoop DwLineMap DwTreeModel DwTreeWalk DieModel DieSpec DieProofs PrepModel PrepSpec.

(** *** Small things *)
Lemma cut_text s after : ~ In 0 s -> cut (s ++ 0 :: after) = Some s.
Proof.
  induction s as [|b s IH]; intros N; [reflexivity|]. cbn [app cut]. destruct (Z.eqb_spec b 0) as [->|_]; [exfalso; apply N; left; reflexivity|]. rewrite IH; [reflexivity|]. intros Q. apply N. right. exact Q.
Qed.
Lemma string_in_text sec o s : string_at (Some sec) o s -> string_in sec o = Some (Ok (Some (VString (Some s)))).
Proof.
  intros (before & after & E & L & N). assert (sec = before ++ s ++ 0 :: after) by congruence. subst sec o. unfold string_in. rewrite !zlen_app, zlen_cons. pose proof (zlen_nonneg s). pose proof (zlen_nonneg after). destruct (Z.leb_spec (zlen before + (zlen s + (1 + zlen after))) (zlen before)); [lia|].
  unfold zlen. rewrite Nat2Z.id, skipn_app, skipn_all, Nat.sub_diag. cbn [skipn app]. rewrite cut_text by exact N. reflexivity.
Qed.
Lemma update_same i l d : update i (fun _ => nth i l d) l = l.
Proof. revert i. induction l as [|s l IH]; intros i; [destruct i; reflexivity|]. destruct i; cbn [update nth]; [reflexivity|]. f_equal. apply IH. Qed.
Lemma set_obj_same i st : set_obj i (obj i st) st = st.
Proof. unfold set_obj, obj. rewrite update_same. destruct st; reflexivity. Qed.
Lemma set_tree_twice t t' st : set_tree t (set_tree t' st) = set_tree t st.
Proof. reflexivity. Qed.
Lemma set_tree_same st : set_tree (i_tree st) st = st.
Proof. destruct st; reflexivity. Qed.
Lemma stack_kept co names a st st' : DwTreeModel.ProcessAttribute co names a st = Ok st' -> h_stack st' = h_stack st.
Proof.
  unfold DwTreeModel.ProcessAttribute. intros H. assert (E : forall i o, h_stack (set_obj i o st) = h_stack st) by reflexivity.
  destruct a; destruct (h_stack st) as [|b rest] eqn:ES; cbn [obind] in H;
  repeat match goal with H : context [if ?b then _ else _] |- _ => destruct b | H : obind ?x _ = _ |- _ => destruct x; cbn [obind] in H | H : context [match s_ranges ?x with _ => _ end] |- _ => destruct (s_ranges x) | H : context [match h_dies ?x with _ => _ end] |- _ => destruct (h_dies x) as [|[]] end; try discriminate; injection H as <-; rewrite ?E; cbn; congruence.
Qed.

Section Walk.
Context (en : endian) (e : elf) (vaddr : Z) (junk : option (list Z)) (rng5 : bool -> Z -> Z -> Z -> Z -> outcome (list (Z * Z))) (split : list Z -> istate -> outcome istate).
Notation hnd := (inline_handler en e vaddr junk rng5 split).
Notation secs := (die_sections e).
Context (u : dunit).
(** The state belongs to the unit. *)
Definition belongs (names : cu) (base : Z) (st : istate) : Prop :=
  i_offset st = u_offset u /\ i_names st = names /\ i_base st = base /\ i_version st = DieSpec.u_version u /\ i_asz st = u_asz u /\ i_osz st = u_osz u.
Lemma value_text a it s st : text e it s -> value_of en secs hnd u a it st = Some (Ok (Some (VString (Some s)))).
Proof.
  intros [s'|o s' SA|o s' SA]; cbn [value_of die_sections s_str s_line_str]; [reflexivity| |].
  - destruct (e_str e) as [sec|]; [apply string_in_text; exact SA|destruct SA as (? & ? & Q & _); discriminate].
  - destruct (e_line_str e) as [sec|]; [apply string_in_text; exact SA|destruct SA as (? & ? & Q & _); discriminate].
Qed.
Lemma value_const a real it n st : constant u a real it n -> value_of en secs hnd u a it st = Some (Ok (Some (VSigned n))).
Proof.
  intros (-> & _ & V & <- & B). cbn [value_of]. rewrite V. cbn [Z.eqb Pos.eqb]. destruct (Z.leb_spec 0 (a_const a)); [|lia]. destruct (Z.ltb_spec (a_const a) (2 ^ 32)); [|lia]. reflexivity.
Qed.
Lemma value_readable a real it st : readable e u a real it ->
  (exists n, value_of en secs hnd u a it st = Some (Ok (Some (VUnsigned n)))) \/ (exists n, value_of en secs hnd u a it st = Some (Ok (Some (VSigned n)))) \/
  (exists s, value_of en secs hnd u a it st = Some (Ok (Some (VString (Some s))))) \/ (exists s, value_of en secs hnd u a it st = Some (Ok (Some (VBuffer s)))) \/ value_of en secs hnd u a it st = Some (Ok None).
Proof.
  intros [it' s T|n|n|b| |n C].
  - right. right. left. exists s. apply value_text. exact T.
  - left. exists n. reflexivity.
  - right. left. exists n. reflexivity.
  - right. right. right. left. exists b. reflexivity.
  - right. right. right. right. reflexivity.
  - right. left. exists n. apply (value_const _ _ _ _ _ C).
Qed.
Lemma visit_item off a l real it its st dwo : 
  visit_items en secs hnd u off (a :: l) ((real, it) :: its) (st, dwo) =
  andthen (value_of en secs hnd u a it st) (fun v => andthen (match v with Some v => Some (give hnd off a real v (st, dwo)) | None => Some (Ok (st, dwo)) end) (fun st => visit_items en secs hnd u off l its st)).
Proof. reflexivity. Qed.
Ltac name_is H := rewrite ?H; cbn [Z.eqb Pos.eqb orb andb].
Lemma on_tree_ok names base a st t : belongs names base st -> DwTreeModel.ProcessAttribute (u_offset u) names a (i_tree st) = Ok t -> on_tree a st = Ok (set_tree t st).
Proof. intros (B1 & B2 & _) P. unfold on_tree. rewrite B1, B2, P. reflexivity. Qed.
Lemma attr_read names base off a real it x st dwo t : belongs names base st -> u_asz u = 4 \/ u_asz u = 8 -> h_stack (i_tree st) <> [] -> attr_says en e u base a real it x ->
  ProcessAttributes (u_offset u) names x (i_tree st) = Ok t ->
  andthen (value_of en secs hnd u a it st) (fun v => match v with Some v => Some (give hnd off a real v (st, dwo)) | None => Some (Ok (st, dwo)) end) = Some (Ok (set_tree t st, dwo)).
Proof.
  intros BE ASZ HS AS. 
  assert (ONE : forall y, ProcessAttributes (u_offset u) names [y] (i_tree st) = Ok t -> on_tree y st = Ok (set_tree t st)).
  { intros y P. cbn [ProcessAttributes] in P. destruct (DwTreeModel.ProcessAttribute (u_offset u) names y (i_tree st)) as [t'| |] eqn:Q; cbn [obind] in P; try discriminate. injection P as <-. apply (on_tree_ok names base); assumption. }
  assert (GIVE : forall v, h_attr hnd off (a_name a) real v st = Ok (set_tree t st) -> (match v with VString _ => a_name a <> 0x2130 /\ a_name a <> 0x76 | _ => True end) -> give hnd off a real v (st, dwo) = Ok (set_tree t st, dwo)).
  { intros v HA NV. unfold give. cbn [fst snd]. rewrite HA. cbn [obind]. destruct v; try reflexivity. destruct NV as (N1 & N2). destruct (Z.eqb_spec (a_name a) 0x2130); [contradiction|]. destruct (Z.eqb_spec (a_name a) 0x76); [contradiction|]. reflexivity. }
  destruct (h_stack (i_tree st)) as [|back rest] eqn:EH; [contradiction|]. clear HS.
  destruct AS as [it s N T|it s N T|n N|it n N C|n N F|it n N C|n N F|n ab N F|n ab N F|n N|n N F|n N F|n before xs after N F V ER L OK|n N|n N|it n N C|it N R]; intros P.
  - rewrite (value_text _ _ _ _ T). cbn [andthen]. rewrite GIVE; [reflexivity| |lia]. cbn [inline_handler h_attr]. unfold attr_string. rewrite EH. name_is N.
    destruct (s_name (obj back (i_tree st))) as [|c nm] eqn:SN; [apply ONE; exact P|]. cbn [ProcessAttributes] in P. unfold DwTreeModel.ProcessAttribute in P. rewrite EH, SN in P. cbn [obind] in P. injection P as <-. rewrite set_obj_same, set_tree_same. reflexivity.
  - rewrite (value_text _ _ _ _ T). cbn [andthen]. rewrite GIVE; [reflexivity| |cbn [In] in N; lia]. cbn [inline_handler h_attr]. unfold attr_string. rewrite EH. cbn [In] in N. destruct N as [N|[N|[]]]; rewrite <- N; cbn [Z.eqb Pos.eqb orb andb]; apply ONE; exact P.
  - cbn [value_of andthen]. rewrite GIVE; [reflexivity| |exact Logic.I]. cbn [inline_handler h_attr]. unfold attr_unsigned. rewrite EH, N. apply ONE. exact P.
  - rewrite (value_const _ _ _ _ _ C). cbn [andthen]. rewrite GIVE; [reflexivity| |exact Logic.I]. cbn [inline_handler h_attr]. unfold attr_signed. destruct C as (_ & -> & _). rewrite N. apply ONE. exact P.
  - cbn [value_of andthen]. rewrite GIVE; [reflexivity| |exact Logic.I]. cbn [inline_handler h_attr]. unfold attr_unsigned. rewrite EH, N. assert (short_form real = true) as -> by (cbn [data124 In] in F; unfold short_form; destruct F as [<-|[<-|[<-|[]]]]; reflexivity). apply ONE. exact P.
  - rewrite (value_const _ _ _ _ _ C). cbn [andthen]. rewrite GIVE; [reflexivity| |exact Logic.I]. cbn [inline_handler h_attr]. unfold attr_signed. destruct C as (_ & -> & _). rewrite N. apply ONE. exact P.
  - cbn [value_of andthen]. rewrite GIVE; [reflexivity| |exact Logic.I]. cbn [inline_handler h_attr]. unfold attr_unsigned. rewrite EH, N. assert (short_form real = true) as -> by (cbn [data124 In] in F; unfold short_form; destruct F as [<-|[<-|[<-|[]]]]; reflexivity). apply ONE. exact P.
  - cbn [value_of andthen]. rewrite GIVE; [reflexivity| |exact Logic.I]. cbn [inline_handler h_attr]. unfold attr_unsigned. rewrite EH, N. subst real. destruct ab; cbn [Z.eqb Pos.eqb]; apply ONE; exact P.
  - cbn [value_of andthen]. rewrite GIVE; [reflexivity| |exact Logic.I]. cbn [inline_handler h_attr]. unfold attr_unsigned. rewrite EH, N. subst real. destruct ab; cbn [Z.eqb Pos.eqb]; apply ONE; exact P.
  - cbn [value_of andthen]. rewrite GIVE; [reflexivity| |exact Logic.I]. cbn [inline_handler h_attr]. unfold attr_unsigned. rewrite EH, N. apply ONE. exact P.
  - cbn [value_of andthen]. rewrite GIVE; [reflexivity| |exact Logic.I]. cbn [inline_handler h_attr]. unfold attr_unsigned. rewrite EH, N. subst real. cbn [Z.eqb Pos.eqb negb]. apply ONE. exact P.
  - cbn [value_of andthen]. rewrite GIVE; [reflexivity| |exact Logic.I]. cbn [inline_handler h_attr]. unfold attr_unsigned. rewrite EH, N. destruct (Z.eqb_spec real 1); [contradiction|]. cbn [negb]. apply ONE. exact P.
  - cbn [value_of andthen]. rewrite GIVE; [reflexivity| |exact Logic.I]. cbn [inline_handler h_attr]. unfold attr_unsigned. rewrite EH, N.
    assert (SR : s_ranges (obj back (i_tree st)) = []). { cbn [ProcessAttributes] in P. unfold DwTreeModel.ProcessAttribute in P. rewrite EH in P. destruct (s_ranges (obj back (i_tree st))); [reflexivity|discriminate]. }
    rewrite SR. unfold read_ranges. assert ((real =? 23) || (real =? 6) || (real =? 7) = true) as -> by (cbn [offset_form In] in F; destruct F as [<-|[<-|[<-|[]]]]; reflexivity).
    destruct BE as (B1 & B2 & B3 & B4 & B5 & B6). rewrite B4. destruct (Z.leb_spec 5 (DieSpec.u_version u)); [lia|]. rewrite ER, B5, B3, <- L. rewrite C25_range_list_denotation by assumption. cbn [obind app]. apply ONE. exact P.
  - cbn [value_of andthen]. rewrite GIVE; [reflexivity| |exact Logic.I]. cbn [inline_handler h_attr]. unfold attr_unsigned. rewrite EH, N. apply ONE. exact P.
  - cbn [value_of andthen]. rewrite GIVE; [reflexivity| |exact Logic.I]. cbn [inline_handler h_attr]. unfold attr_signed. rewrite N. cbn [ProcessAttributes] in P. unfold DwTreeModel.ProcessAttribute in P. rewrite EH in P. cbn [obind] in P. injection P as <-. rewrite set_tree_same. reflexivity.
  - rewrite (value_const _ _ _ _ _ C). cbn [andthen]. rewrite GIVE; [reflexivity| |exact Logic.I]. cbn [inline_handler h_attr]. unfold attr_signed. rewrite N. cbn [ProcessAttributes] in P. unfold DwTreeModel.ProcessAttribute in P. rewrite EH in P. cbn [obind] in P. injection P as <-. rewrite set_tree_same. reflexivity.
  - cbn [ProcessAttributes] in P. injection P as <-. rewrite set_tree_same. rewrite set_tree_same in GIVE. cbn [used_names In] in N.
    destruct (value_readable a real it st R) as [(n & E)|[(n & E)|[(s & E)|[(s & E)|E]]]]; rewrite E; cbn [andthen]; try reflexivity; rewrite GIVE; try reflexivity; try exact Logic.I; try lia; cbn [inline_handler h_attr].
    + unfold attr_unsigned. rewrite EH. revert N. generalize (a_name a). clear. intros k N. destruct k as [|p|p]; try reflexivity. do 14 (try destruct p as [p|p|]; try reflexivity); exfalso; lia.
    + unfold attr_signed. revert N. generalize (a_name a). clear. intros k N. destruct k as [|p|p]; try reflexivity. do 7 (try destruct p as [p|p|]; try reflexivity); exfalso; lia.
    + unfold attr_string. rewrite EH. destruct (Z.eqb_spec (a_name a) 27); [lia|]. destruct (Z.eqb_spec (a_name a) 8199); [lia|]. destruct (Z.eqb_spec (a_name a) 110); [lia|]. destruct (Z.eqb_spec (a_name a) 3); [lia|]. reflexivity.
Qed.
Lemma items_read names base off l its x : items_say en e u base l its x -> forall st dwo t, belongs names base st -> u_asz u = 4 \/ u_asz u = 8 -> h_stack (i_tree st) <> [] ->
  ProcessAttributes (u_offset u) names x (i_tree st) = Ok t ->
  visit_items en secs hnd u off l its (st, dwo) = Some (Ok (set_tree t st, dwo)) /\ h_stack t = h_stack (i_tree st).
Proof.
  induction 1 as [|a l real it its x xs AS IS IH]; intros st dwo t BE ASZ HS P.
  - cbn [ProcessAttributes] in P. injection P as <-. rewrite set_tree_same. split; reflexivity.
  - assert (SPL : exists t1, ProcessAttributes (u_offset u) names x (i_tree st) = Ok t1 /\ ProcessAttributes (u_offset u) names xs t1 = Ok t /\ h_stack t1 = h_stack (i_tree st)).
    { clear - P AS. assert (LX : x = [] \/ exists y, x = [y]) by (destruct AS; eauto). destruct LX as [->|(y & ->)]; [exists (i_tree st); split; [reflexivity|]; split; [exact P|reflexivity]|].
      cbn [app ProcessAttributes] in *. destruct (DwTreeModel.ProcessAttribute (u_offset u) names y (i_tree st)) as [t1| |] eqn:E; cbn [obind] in *; try discriminate. exists t1. split; [reflexivity|]. split; [exact P|]. apply stack_kept in E. exact E. }
    destruct SPL as (t1 & P1 & P2 & H1). pose proof (attr_read names base off a real it x st dwo t1 BE ASZ HS AS P1) as AR. rewrite visit_item.
    assert (VE : value_of en secs hnd u a it st <> None /\ forall f : _ -> option (outcome (istate * option (list Z))), andthen (value_of en secs hnd u a it st) (fun v => andthen (match v with Some v => Some (give hnd off a real v (st, dwo)) | None => Some (Ok (st, dwo)) end) f) = f (set_tree t1 st, dwo)).
    { destruct (value_of en secs hnd u a it st) as [[[v|]| |]|]; cbn [andthen] in AR |- *; try discriminate; (split; [discriminate|]); intros f.
      - destruct (give hnd off a real v (st, dwo)) as [q| |]; cbn [andthen] in AR |- *; try discriminate. injection AR as ->. reflexivity.
      - injection AR as -> . reflexivity. }
    rewrite (proj2 VE). destruct (IH (set_tree t1 st) dwo t) as (IH1 & IH2); [exact BE|exact ASZ|cbn [set_tree i_tree]; rewrite H1; exact HS|exact P2|]. rewrite IH1, set_tree_twice. split; [reflexivity|]. rewrite IH2. exact H1.
Qed.
Lemma visit_tree off d items kids st : visit en secs hnd u (Tree off d items kids) st =
  andthen (Some (h_start hnd off (d_tag d) (map (fun a => (a_name a, a_form a)) (d_attrs d)) (fst st))) (fun '(wanted, hs) =>
  andthen (if (wanted : bool) then visit_items en secs hnd u off (d_attrs d) items (hs, snd st) else skip_items items (hs, snd st)) (fun st =>
  andthen (visit_all en secs hnd u kids st) (fun st => Some (let! hs := h_end hnd off (fst st) in Ok (hs, snd st))))).
Proof.
  cbn [visit]. destruct (h_start hnd off (d_tag d) (map (fun a => (a_name a, a_form a)) (d_attrs d)) (fst st)) as [[w hs]| |]; reflexivity.
Qed.
Lemma trees_read names base l ds : decodes en e u base l ds -> forall st dwo t, belongs names base st -> u_asz u = 4 \/ u_asz u = 8 ->
  process_list (u_offset u) names ds (i_tree st) = Ok t -> visit_all en secs hnd u l (st, dwo) = Some (Ok (set_tree t st, dwo)).
Proof.
  assert (FUN : forall tg off d items kids attrs ks, (tag_of (d_tag d) = tg /\ (tg = TagSubprogram \/ tg = TagInlined)) -> items_say en e u base (d_attrs d) items attrs ->
    (forall st dwo t, belongs names base st -> u_asz u = 4 \/ u_asz u = 8 -> process_list (u_offset u) names ks (i_tree st) = Ok t -> visit_all en secs hnd u kids (st, dwo) = Some (Ok (set_tree t st, dwo))) ->
    forall st dwo t, belongs names base st -> u_asz u = 4 \/ u_asz u = 8 -> process (u_offset u) names (Die off tg attrs ks) (i_tree st) = Ok t -> visit en secs hnd u (Tree off d items kids) (st, dwo) = Some (Ok (set_tree t st, dwo))).
  { intros tg off d items kids attrs ks (TE & TC) IS IH st dwo t BE ASZ P. rewrite process_unfold in P. rewrite visit_tree. cbn [inline_handler h_start h_end fst snd]. rewrite TE.
    destruct (StartDIE off tg (i_tree st)) as [w t1] eqn:S1. assert (W : w = true /\ h_stack t1 <> []) by (destruct TC as [-> | ->]; cbn in S1; injection S1 as <- <-; cbn; (split; [reflexivity|discriminate])). destruct W as (-> & HS). cbn [andthen].
    destruct (ProcessAttributes (u_offset u) names attrs t1) as [t2| |] eqn:P2; cbn [obind] in P; try discriminate. destruct (items_read names base off _ _ _ IS (set_tree t1 st) dwo t2 BE ASZ HS P2) as (V2 & _). rewrite V2. cbn [andthen]. rewrite set_tree_twice.
    destruct (process_list (u_offset u) names ks t2) as [t3| |] eqn:P3; cbn [obind] in P; try discriminate. rewrite (IH (set_tree t2 st) dwo t3 BE ASZ P3). cbn [andthen fst snd]. rewrite set_tree_twice. cbn [set_tree i_tree]. rewrite P. reflexivity. }
  induction 1 as [|off d items kids l attrs ks ds T IS D1 IH1 D2 IH2|off d items kids l attrs ks ds T IS D1 IH1 D2 IH2|off d items kids l ks ds T NF D1 IH1 D2 IH2]; intros st dwo t BE ASZ P; cbn [process_list] in P.
  - injection P as <-. rewrite set_tree_same. reflexivity.
  - cbn [visit_all]. destruct (process (u_offset u) names (Die off TagSubprogram attrs ks) (i_tree st)) as [t1| |] eqn:P1; cbn [obind] in P; try discriminate. rewrite (FUN TagSubprogram off d items kids attrs ks) with (t := t1); [| |exact IS|exact IH1|exact BE|exact ASZ|exact P1]; [|rewrite T; split; [reflexivity|left; reflexivity]]. cbn [andthen]. rewrite (IH2 (set_tree t1 st) dwo t BE ASZ P), set_tree_twice. reflexivity.
  - cbn [visit_all]. destruct (process (u_offset u) names (Die off TagInlined attrs ks) (i_tree st)) as [t1| |] eqn:P1; cbn [obind] in P; try discriminate. rewrite (FUN TagInlined off d items kids attrs ks) with (t := t1); [| |exact IS|exact IH1|exact BE|exact ASZ|exact P1]; [|rewrite T; split; [reflexivity|right; reflexivity]]. cbn [andthen]. rewrite (IH2 (set_tree t1 st) dwo t BE ASZ P), set_tree_twice. reflexivity.
  - cbn [visit_all]. destruct (process (u_offset u) names (Die off TagOther [] ks) (i_tree st)) as [t1| |] eqn:P1; cbn [obind] in P; try discriminate. rewrite process_unfold in P1. rewrite visit_tree. cbn [inline_handler h_start h_end fst snd].
    assert (TO : tag_of (d_tag d) = TagOther). { cbn [In] in T. revert T. generalize (d_tag d). clear. intros k T. destruct k as [|p|p]; try reflexivity. do 7 (try destruct p as [p|p|]; try reflexivity); exfalso; lia. }
    rewrite TO. cbn [StartDIE] in P1 |- *. cbn [andthen obind fst snd] in P1 |- *.
    assert (SK : skip_items items (set_tree {| objs := objs (i_tree st); by_offset := by_offset (i_tree st); h_stack := h_stack (i_tree st); h_dies := TagOther :: h_dies (i_tree st); order := order (i_tree st); comp_dir := comp_dir (i_tree st) |} st, dwo) = Some (Ok (set_tree {| objs := objs (i_tree st); by_offset := by_offset (i_tree st); h_stack := h_stack (i_tree st); h_dies := TagOther :: h_dies (i_tree st); order := order (i_tree st); comp_dir := comp_dir (i_tree st) |} st, dwo))).
    { unfold skip_items. assert (existsb (fun x : Z * item => fst x =? 31) items = false) as ->; [|reflexivity]. clear - NF. induction NF as [|x l N _ IH]; [reflexivity|]. cbn [existsb]. rewrite IH. destruct (Z.eqb_spec (fst x) 31); [contradiction|reflexivity]. }
    rewrite SK. clear SK. cbn [andthen]. match type of P1 with obind (process_list _ _ _ ?q) _ = _ => set (t0 := q) in * end. destruct (process_list (u_offset u) names ks t0) as [t2| |] eqn:P2; cbn [obind] in P1; try discriminate. rewrite (IH1 (set_tree t0 st) dwo t2 BE ASZ P2). cbn [andthen fst snd]. change (i_tree (set_tree t2 (set_tree t0 st))) with t2. rewrite P1. cbn [obind andthen]. rewrite !set_tree_twice. rewrite (IH2 (set_tree t1 st) dwo t BE ASZ P), set_tree_twice. reflexivity.
Qed.

(** *** The entry of the unit *)
Lemma defined_kept l : forall D F m c m', zlen D < 2 ^ 31 -> files_exist (zlen D) (zlen F) l -> handle_all vaddr (map call_of l) (tables D F, m) = Ok (c, m') -> c = tables D (F ++ defined l).
Proof.
  induction l as [|[r|r|name d mt len] l IH]; intros D F m c m' HD FE H; cbn [map handle_all defined files_exist] in *.
  - rewrite app_nil_r. congruence.
  - assert (HC : forall st, handle vaddr (call_of (Row r)) (tables D F, m) = Ok st -> fst st = tables D F).
    { cbn [call_of handle]. intros st. repeat match goal with |- context [if ?b then _ else _] => destruct b | |- context [let '(_, _) := ?p in _] => destruct p end; intros Q; injection Q as <-; reflexivity. }
    destruct (handle vaddr (call_of (Row r)) (tables D F, m)) as [[c1 m1]| |]; cbn [obind] in H; try discriminate. specialize (HC _ eq_refl). cbn [fst] in HC. subst c1. exact (IH D F m1 c m' HD (proj2 FE) H).
  - assert (HC : forall st, handle vaddr (call_of (End r)) (tables D F, m) = Ok st -> fst st = tables D F).
    { cbn [call_of handle]. intros st. repeat match goal with |- context [if ?b then _ else _] => destruct b | |- context [let '(_, _) := ?p in _] => destruct p end; intros Q; injection Q as <-; reflexivity. }
    destruct (handle vaddr (call_of (End r)) (tables D F, m)) as [[c1 m1]| |]; cbn [obind] in H; try discriminate. specialize (HC _ eq_refl). cbn [fst] in HC. subst c1. exact (IH D F m1 c m' HD FE H).
  - cbn [call_of] in H. change (d mod 2 ^ 32) with (u32 d) in H. rewrite handle_file in H by (try apply FE; try assumption; right; reflexivity). cbn [obind] in H. rewrite (IH D (F ++ [(name, d)]) m c m' HD) with (2 := H); [rewrite <- app_assoc; reflexivity|]. rewrite zlen_app. apply FE.
Qed.
Lemma handle_unit_names lu m : good_unit lu -> handle_all vaddr (unit_calls lu) (cu0, m) = Ok (names_of lu, fold_left (add_row vaddr) (unit_rows lu) m).
Proof.
  intros GU. destruct (handle_unit vaddr lu m GU) as (c & E). rewrite E. do 2 f_equal. destruct GU as (GP & SE & LD & LF & FD & FE).
  unfold unit_calls in E. rewrite handle_all_app in E. pose proof (handle_dirs vaddr (u_dirs lu) [] m) as H1. change (zlen [] + 1) with 1 in H1. change (tables [] []) with cu0 in H1. rewrite H1 in E. cbn [obind app] in E. rewrite handle_all_app in E. pose proof (handle_files vaddr (u_files lu) (u_dirs lu) [] m LD FD) as H2. change (zlen [] + 1) with 1 in H2. rewrite H2 in E. cbn [obind app] in E.
  apply defined_kept in E; [exact E|exact LD|rewrite zlen_map; exact FE].
Qed.
Lemma read_lines_ok lu before bs after st : i_names st = cu0 -> i_asz st = u_asz u -> i_osz st = u_osz u -> u_asz u = 4 \/ u_asz u = 8 -> e_line e = Some (before ++ bs ++ after) ->
  encoded_unit en (u_asz u) (u_osz u) lu bs -> good_unit lu ->
  PrepModel.read_lines en e vaddr junk (zlen before) st = Ok (set_lines (names_of lu) (fold_left (add_row vaddr) (unit_rows lu) (i_lines st)) st).
Proof.
  intros EC EA EO ASZ EL EU GU. unfold PrepModel.read_lines. rewrite EL. assert (AT : DieModel.at_pos (zlen before) (before ++ bs ++ after) = bs ++ after) by (unfold DieModel.at_pos, zlen; rewrite Nat2Z.id, skipn_app, skipn_all, Nat.sub_diag; cbn [app skipn]; destruct (Z.ltb_spec (Z.of_nat (length before)) (Z.of_nat (length (before ++ bs ++ after)))) as [_|Q]; [reflexivity|rewrite app_length in Q; destruct (bs ++ after); [reflexivity|cbn [length] in Q; lia]]). rewrite AT.
  assert (RI : exists n il, ReadInitialLength en (bs ++ after) = Ok (n, il, u_osz u)). { inversion EU as [il ver hl mx stb lb tail dirs_ files_ prog H1 H2 H3 H4 H5 H6 H7 H8 H9 H10 H11 IL]; subst. rewrite <- app_assoc. destruct (initial_read en (u_osz u) _ _ ((ver ++ hl ++ ([p_min (u_params lu)] ++ mx ++ [stb; lb; p_line_range (u_params lu); p_opcode_base (u_params lu)] ++ p_lengths (u_params lu) ++ dirs_ ++ files_) ++ prog) ++ after) IL) as (RI & _). rewrite RI. eauto. }
  destruct RI as (n & il & ->). rewrite EO, Z.eqb_refl, EA. pose proof GU as (GP & SE & LD & LF & _). rewrite (start_read en (u_asz u) (u_osz u) true ASZ _ _ lu bs after _ EU GP LD LF SE) by (rewrite app_length; lia). cbn [obind]. rewrite EC, handle_unit_names by exact GU. reflexivity.
Qed.

Definition dir_after (fs : list fact) (cd : option (list Z)) : option (list Z) := fold_left (fun cd f => match f with FDir s => Some s | _ => cd end) fs cd.
Definition low_after (fs : list fact) (b : Z) : Z := fold_left (fun b f => match f with FLow a => a | _ => b end) fs b.
Definition with_dir (cd : option (list Z)) (t : DwTreeModel.state) : DwTreeModel.state :=
  {| objs := objs t; by_offset := by_offset t; h_stack := h_stack t; h_dies := h_dies t; order := order t; comp_dir := cd |}.
(** What remains to be read of the line table. *)
Inductive line_facts (fs : list fact) (c : cu) : list unit_ -> cu -> Prop :=
| lf_none : filter is_lines fs = [] -> line_facts fs c [] c
| lf_one lu n before bs after : filter is_lines fs = [FLines n] -> c = cu0 -> e_line e = Some (before ++ bs ++ after) -> zlen before = n ->
    encoded_unit en (u_asz u) (u_osz u) lu bs -> good_unit lu -> line_facts fs c [lu] (names_of lu).
Definition fits (st : istate) : Prop := i_offset st = u_offset u /\ i_version st = DieSpec.u_version u /\ i_asz st = u_asz u /\ i_osz st = u_osz u.
Lemma fact_read off a real it f st : u_asz u = 4 \/ u_asz u = 8 -> unit_says e u a real it f -> fits st -> h_stack (i_tree st) = [] -> (exists dies, h_dies (i_tree st) = TagUnit :: dies) ->
  match f with
  | FLines n => exists lu before bs after, i_names st = cu0 /\ e_line e = Some (before ++ bs ++ after) /\ zlen before = n /\ encoded_unit en (u_asz u) (u_osz u) lu bs /\ good_unit lu
  | _ => True
  end ->
  exists st', andthen (value_of en secs hnd u a it st) (fun v => match v with Some v => Some (give hnd off a real v (st, None)) | None => Some (Ok (st, None)) end) = Some (Ok (st', None)) /\
    fits st' /\
    match f with
    | FDir s => i_tree st' = with_dir (Some s) (i_tree st) /\ i_names st' = i_names st /\ i_lines st' = i_lines st /\ i_base st' = i_base st
    | FLow b => i_tree st' = i_tree st /\ i_names st' = i_names st /\ i_lines st' = i_lines st /\ i_base st' = b
    | FOther => i_tree st' = i_tree st /\ i_names st' = i_names st /\ i_lines st' = i_lines st /\ i_base st' = i_base st
    | FLines n => i_tree st' = i_tree st /\ i_base st' = i_base st /\ forall lu before bs after, e_line e = Some (before ++ bs ++ after) -> zlen before = n -> encoded_unit en (u_asz u) (u_osz u) lu bs -> good_unit lu ->
        i_names st' = names_of lu /\ i_lines st' = fold_left (add_row vaddr) (unit_rows lu) (i_lines st)
    end.
Proof.
  intros ASZ US FI HS (dies & HD) LN.
  destruct US as [it s N T|n N|n N|n N F|it N R].
  - rewrite (value_text _ _ _ _ T). cbn [andthen]. unfold give. cbn [fst snd inline_handler h_attr]. unfold attr_string. rewrite N. cbn [Z.eqb Pos.eqb orb]. unfold on_tree, DwTreeModel.ProcessAttribute. cbn [obind]. eexists. split; [reflexivity|]. split; [exact FI|]. repeat split; reflexivity.
  - cbn [value_of andthen]. unfold give. cbn [fst snd inline_handler h_attr]. unfold attr_unsigned. rewrite HS, HD, N. cbn [obind]. eexists. split; [reflexivity|]. split; [exact FI|]. repeat split; reflexivity.
  - cbn [value_of andthen]. unfold give. cbn [fst snd inline_handler h_attr]. unfold attr_unsigned. rewrite HS, HD, N. destruct LN as (lu & before & bs & after & L1 & L2 & L3 & L4 & L5). destruct FI as (F1 & F2 & F3 & F4). rewrite <- L3. pose proof (read_lines_ok lu before bs after st L1 F3 F4 ASZ L2 L4 L5) as RL. rewrite RL. cbn [obind]. eexists. split; [reflexivity|]. split; [repeat split; assumption|]. split; [reflexivity|]. split; [reflexivity|].
    intros lu' before' bs' after' M2 M3 M4 M5. assert (BB : before' = before /\ bs' ++ after' = bs ++ after).
    { rewrite L2 in M2. assert (Q : before ++ bs ++ after = before' ++ bs' ++ after') by congruence. unfold zlen in M3. assert (LL : length before' = length before) by lia. clear - Q LL. revert before' LL Q. induction before as [|x l IH]; intros [|y l'] LL Q; cbn in *; try discriminate; [split; [reflexivity|symmetry; exact Q]|]. injection Q as -> Q. destruct (IH l' ltac:(lia) Q) as (-> & E). split; [reflexivity|exact E]. }
    destruct BB as (-> & BB). pose proof (read_lines_ok lu' before bs' after' st L1 F3 F4 ASZ M2 M4 M5) as RL'. rewrite RL in RL'. split; [apply (f_equal (fun o => match o with Ok s => i_names s | _ => cu0 end)) in RL'; exact RL'|apply (f_equal (fun o => match o with Ok s => i_lines s | _ => linemap0 end)) in RL'; exact RL'].
  - cbn [value_of andthen]. unfold give. cbn [fst snd inline_handler h_attr]. unfold attr_unsigned. rewrite HS, HD, N. assert ((real =? 23) || (real =? 6) || (real =? 7) = true) as -> by (cbn [offset_form In] in F; destruct F as [<-|[<-|[<-|[]]]]; reflexivity). cbn [obind]. eexists. split; [reflexivity|]. split; [exact FI|]. repeat split; reflexivity.
  - cbn [In] in N. destruct (value_readable a real it st R) as [(n & E)|[(n & E)|[(s & E)|[(s & E)|E]]]]; rewrite E; cbn [andthen]; unfold give; cbn [fst snd inline_handler h_attr].
    + assert (HA : exists st', attr_unsigned en e vaddr junk rng5 (a_name a) real n st = Ok st' /\ fits st' /\ i_tree st' = i_tree st /\ i_names st' = i_names st /\ i_lines st' = i_lines st /\ i_base st' = i_base st).
      { unfold attr_unsigned. rewrite HS, HD. revert N FI. generalize (a_name a). clear. intros k N FI.
        assert (SAME : exists st', Ok st = Ok st' /\ fits st' /\ i_tree st' = i_tree st /\ i_names st' = i_names st /\ i_lines st' = i_lines st /\ i_base st' = i_base st) by (exists st; split; [reflexivity|]; split; [exact FI|]; repeat split; reflexivity).
        destruct k as [|p|p]; try exact SAME. do 14 (try destruct p as [p|p|]; try exact SAME); try (exfalso; lia); (eexists; split; [reflexivity|]; split; [exact FI|]; repeat split; reflexivity). }
      destruct HA as (st' & -> & FI' & Q). exists st'. split; [reflexivity|]. split; [exact FI'|exact Q].
    + assert (HA : attr_signed (a_name a) real n st = Ok st). { unfold attr_signed. revert N. generalize (a_name a). clear. intros k N. destruct k as [|p|p]; try reflexivity. do 7 (try destruct p as [p|p|]; try reflexivity); exfalso; lia. }
      rewrite HA. exists st. split; [reflexivity|]. split; [exact FI|]. repeat split; reflexivity.
    + unfold attr_string. rewrite HS. destruct (Z.eqb_spec (a_name a) 27); [lia|]. cbn [obind]. destruct (Z.eqb_spec (a_name a) 8496); [lia|]. destruct (Z.eqb_spec (a_name a) 118); [lia|]. exists st. split; [reflexivity|]. split; [exact FI|]. repeat split; reflexivity.
    + exists st. split; [reflexivity|]. split; [exact FI|]. repeat split; reflexivity.
    + exists st. split; [reflexivity|]. split; [exact FI|]. repeat split; reflexivity.
Qed.

Lemma line_facts_skip x xs c lus names : is_lines x = false -> line_facts (x :: xs) c lus names -> line_facts xs c lus names.
Proof. intros N [E|lu n before bs after E C EL L EU GU]; cbn [filter] in E; rewrite N in E; [apply lf_none; exact E|apply (lf_one _ _ lu n before bs after); assumption]. Qed.
Lemma facts_read off l its fs : facts e u l its fs -> u_asz u = 4 \/ u_asz u = 8 -> forall st lus names, fits st -> h_stack (i_tree st) = [] -> (exists dies, h_dies (i_tree st) = TagUnit :: dies) ->
  line_facts fs (i_names st) lus names ->
  exists st', visit_items en secs hnd u off l its (st, None) = Some (Ok (st', None)) /\ fits st' /\ i_tree st' = with_dir (dir_after fs (comp_dir (i_tree st))) (i_tree st) /\
    i_names st' = names /\ i_lines st' = fold_left (add_row vaddr) (concat (map unit_rows lus)) (i_lines st) /\ i_base st' = low_after fs (i_base st).
Proof.
  intros FA ASZ. induction FA as [|a l real it its x xs US FA IH]; intros st lus names FI HS HD LF.
  - exists st. inversion LF as [_ E1 E2|]; subst; [|discriminate]. cbn [dir_after low_after fold_left map concat]. split; [reflexivity|]. split; [exact FI|]. split; [destruct (i_tree st); reflexivity|]. repeat split; reflexivity.
  - destruct (fact_read off a real it x st ASZ US FI HS HD) as (st1 & V1 & FI1 & EF).
    { destruct x; try exact Logic.I. inversion LF as [E|lu n before bs after E C EL L EU GU]; subst; cbn [filter is_lines] in E; [discriminate|]. injection E as -> _. exists lu, before, bs, after. split; [exact C|]. split; [exact EL|]. split; [reflexivity|]. split; assumption. }
    rewrite visit_item.
    assert (VE : forall f : _ -> option (outcome (istate * option (list Z))), andthen (value_of en secs hnd u a it st) (fun v => andthen (match v with Some v => Some (give hnd off a real v (st, None)) | None => Some (Ok (st, None)) end) f) = f (st1, None)).
    { intros f. destruct (value_of en secs hnd u a it st) as [[[v|]| |]|]; cbn [andthen] in V1 |- *; try discriminate.
      - destruct (give hnd off a real v (st, None)) as [q| |]; cbn [andthen] in V1 |- *; try discriminate. injection V1 as ->. reflexivity.
      - injection V1 as ->. reflexivity. }
    rewrite VE. destruct x as [s|b|n|].
    + destruct EF as (E1 & E2 & E3 & E4). destruct (IH st1 lus names FI1) as (st' & V' & FI' & T' & N' & L' & B'); [rewrite E1; exact HS|rewrite E1; exact HD|rewrite E2; apply line_facts_skip in LF; [exact LF|reflexivity]|].
      exists st'. split; [exact V'|]. split; [exact FI'|]. rewrite T', E1, L', E3, B', E4. split; [reflexivity|]. split; [exact N'|]. split; reflexivity.
    + destruct EF as (E1 & E2 & E3 & E4). destruct (IH st1 lus names FI1) as (st' & V' & FI' & T' & N' & L' & B'); [rewrite E1; exact HS|rewrite E1; exact HD|rewrite E2; apply line_facts_skip in LF; [exact LF|reflexivity]|].
      exists st'. split; [exact V'|]. split; [exact FI'|]. rewrite T', E1, L', E3, B', E4. split; [reflexivity|]. split; [exact N'|]. split; reflexivity.
    + destruct EF as (E1 & E4 & E5). inversion LF as [E|lu n' before bs after E C EL L EU GU]; subst; cbn [filter is_lines] in E; [discriminate|]. assert (EN : n = zlen before) by congruence. assert (EX : filter is_lines xs = []) by congruence. destruct (E5 lu before bs after EL (eq_sym EN) EU GU) as (E6 & E7).
      destruct (IH st1 [] (names_of lu) FI1) as (st' & V' & FI' & T' & N' & L' & B'); [rewrite E1; exact HS|rewrite E1; exact HD|rewrite E6; apply lf_none; exact EX|].
      exists st'. split; [exact V'|]. split; [exact FI'|]. rewrite T', E1, L', E7, B', E4. cbn [map concat]. rewrite app_nil_r. split; [reflexivity|]. split; [exact N'|]. split; reflexivity.
    + destruct EF as (E1 & E2 & E3 & E4). destruct (IH st1 lus names FI1) as (st' & V' & FI' & T' & N' & L' & B'); [rewrite E1; exact HS|rewrite E1; exact HD|rewrite E2; apply line_facts_skip in LF; [exact LF|reflexivity]|].
      exists st'. split; [exact V'|]. split; [exact FI'|]. rewrite T', E1, L', E3, B', E4. split; [reflexivity|]. split; [exact N'|]. split; reflexivity.
Qed.
Lemma dir_after_only fs comp cd : filter is_dir fs = [FDir comp] -> dir_after fs cd = Some comp.
Proof.
  assert (NO : forall l c, filter is_dir l = [] -> dir_after l c = c) by (induction l as [|[] l IH]; intros c F; cbn in F |- *; try discriminate; try reflexivity; apply IH; exact F).
  revert cd. induction fs as [|[] fs IH]; intros cd F; cbn [filter is_dir] in F; try discriminate; try (apply IH; exact F). injection F as -> F. change (dir_after fs (Some comp) = Some comp). apply NO. exact F.
Qed.
Lemma low_after_only fs low b : filter is_low fs = option_list (option_map FLow low) -> low_after fs b = match low with Some a => a | None => b end.
Proof.
  assert (NO : forall l c, filter is_low l = [] -> low_after l c = c) by (induction l as [|[] l IH]; intros c F; cbn in F |- *; try discriminate; try reflexivity; apply IH; exact F).
  destruct low as [a|]; cbn [option_map option_list]; [|apply NO]. revert b. induction fs as [|[] fs IH]; intros b F; cbn [filter is_low] in F; try discriminate; try (apply IH; exact F). injection F as -> F. change (low_after fs a = a). apply NO. exact F.
Qed.
Lemma unit_visited lus d st t : u_asz u = 4 \/ u_asz u = 8 -> decodes_unit en e u lus d -> h_stack (i_tree st) = [] ->
  process (fst (fst d)) (snd (fst d)) (snd d) (i_tree st) = Ok t ->
  exists st', visit_unit en secs hnd u st = Some (Ok st') /\ i_tree st' = t /\ i_lines st' = fold_left (add_row vaddr) (concat (map unit_rows lus)) (i_lines st).
Proof.
  intros ASZ DU HS P. destruct DU as [off d items kids fs comp low lines lus names ds TR TG FA FD FL FN LO DC]. cbn [fst snd] in P. rewrite process_unfold in P. cbn [StartDIE ProcessAttributes DwTreeModel.ProcessAttribute h_stack obind] in P.
  unfold visit_unit. cbn [inline_handler h_unit]. unfold start_unit. rewrite HS. cbn [andthen]. cbn [die_sections s_str_offsets s_addr]. 
  match goal with |- context [visit_all en secs hnd u (u_trees u) (?x, None)] => set (st1 := x) end.
  assert (S1 : i_tree st1 = i_tree st /\ fits st1 /\ i_names st1 = cu0 /\ i_lines st1 = i_lines st /\ i_base st1 = 0) by (subst st1; destruct (e_addr e); [destruct (DieSpec.u_version u =? 5)|]; repeat split; reflexivity).
  clearbody st1. destruct S1 as (T1 & FI1 & N1 & L1 & B1). rewrite TR. cbn [visit_all]. rewrite visit_tree. cbn [inline_handler h_start h_end fst snd].
  assert (TO : tag_of (d_tag d) = TagUnit) by (cbn [In] in TG; destruct TG as [<-|[<-|[]]]; reflexivity). rewrite TO. cbn [StartDIE andthen fst snd]. rewrite T1.
  match goal with |- context [set_tree ?x st1] => set (t1 := x) in * end.
  destruct (facts_read off _ _ _ FA ASZ (set_tree t1 st1) lus names) as (st2 & V2 & FI2 & T2 & N2 & L2 & B2); [exact FI1|exact HS|exists (h_dies (i_tree st)); reflexivity|cbn [set_tree i_names]; rewrite N1; destruct LO as [->|lu n before bs after -> EL L EU GU]; cbn [option_map option_list] in FN; [apply lf_none; exact FN|eapply lf_one; eauto]|].
  rewrite V2. cbn [andthen]. rewrite (dir_after_only _ _ _ FD) in T2. rewrite (low_after_only _ _ _ FL) in B2. cbn [set_tree i_base i_lines i_tree] in B2, L2, T2. rewrite B1 in B2. rewrite L1 in L2.
  assert (BE : belongs names (match low with Some a => a | None => 0 end) st2) by (destruct FI2 as (F1 & F2 & F3 & F4); repeat split; assumption).
  match type of P with obind (process_list _ _ _ ?q) _ = _ => change q with (with_dir (Some comp) t1) in P end. rewrite <- T2 in P.
  destruct (process_list (u_offset u) names ds (i_tree st2)) as [t3| |] eqn:P3; cbn [obind] in P; try discriminate. rewrite (trees_read names _ kids ds DC st2 None t3 BE ASZ P3). cbn [andthen fst snd]. change (i_tree (set_tree t3 st2)) with t3. rewrite P. cbn [obind andthen]. eexists. split; [reflexivity|]. split; [reflexivity|]. exact L2.
Qed.
End Walk.
Lemma enc_unit_asz en s pos u b : enc_unit en s pos u b -> u_asz u = 4 \/ u_asz u = 8.
Proof. intros []. assumption. Qed.
Lemma units_visited en e vaddr junk rng5 split us lus ds : decodes_units en e us lus ds -> forall pos bs st t, enc_units en (die_sections e) pos us bs -> read_dies ds (i_tree st) = Ok t ->
  exists st', visit_units en (die_sections e) (inline_handler en e vaddr junk rng5 split) us st = Some (Ok st') /\ i_tree st' = t /\ i_lines st' = fold_left (add_row vaddr) (concat (map unit_rows lus)) (i_lines st).
Proof.
  induction 1 as [|u us lus lus' d ds DU DS IH]; intros pos bs st t EN RD; cbn [read_dies] in RD.
  - injection RD as <-. exists st. repeat split; reflexivity.
  - inversion EN as [|? ? ? b bs' EU ES]; subst. destruct d as [[offset names] d]. destruct (h_stack (i_tree st)) eqn:HS; [|discriminate]. destruct (process offset names d (i_tree st)) as [t1| |] eqn:P1; cbn [obind] in RD; try discriminate.
    destruct (unit_visited en e vaddr junk rng5 split u lus (offset, names, d) st t1 (enc_unit_asz _ _ _ _ _ EU) DU HS P1) as (st1 & V1 & T1 & L1). cbn [visit_units]. rewrite V1. cbn [andthen]. rewrite <- T1 in RD. destruct (IH _ _ st1 t ES RD) as (st' & V' & T' & L'). exists st'. split; [exact V'|]. split; [exact T'|]. rewrite L', L1, map_app, concat_app, fold_left_app. reflexivity.
Qed.
