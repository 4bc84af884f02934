(** Proofs for C64, part four: symbols that come more than once (from .symtab and
    from .dynsym). *)
From Verif Require Import Base ByteModel ZMap SymbolModel SymbolSpec SymbolProofs ElideModel AddrModel AddrProps SampleModel
  ProfileModel CreateModel CreateSpec CreateProofs.

Lemma zsorted_ext {V} (m1 m2 : list (Z * V)) : zsorted m1 -> zsorted m2 -> (forall e, In e m1 <-> In e m2) -> m1 = m2.
Proof.
  intros S1. revert m2. induction S1 as [|k v m1 B S1 IH]; intros m2 S2 H.
  - destruct m2 as [|e m2]; [reflexivity|]. destruct (proj2 (H e) (or_introl eq_refl)).
  - destruct S2 as [|k2 v2 m2 B2 S2]; [destruct (proj1 (H (k, v)) (or_introl eq_refl))|].
    assert (E : (k, v) = (k2, v2)).
    { destruct (proj1 (H (k, v)) (or_introl eq_refl)) as [E|I1]; [congruence|].
      destruct (proj2 (H (k2, v2)) (or_introl eq_refl)) as [E|I2]; [congruence|].
      apply B2 in I1. apply B in I2. lia. }
    injection E as <- <-. f_equal. apply IH; [exact S2|]. intros [k' v']. split; intros I.
    + destruct (proj1 (H (k', v')) (or_intror I)) as [E|I2]; [injection E as <- <-; apply B in I; lia|exact I2].
    + destruct (proj2 (H (k', v')) (or_intror I)) as [E|I2]; [injection E as <- <-; apply B2 in I; lia|exact I2].
Qed.

Lemma aset_twice n (i : nat) m : aset name_eqb n i (aset name_eqb n i m) = aset name_eqb n i m.
Proof.
  induction m as [|[k v] m IH]; cbn [aset].
  - destruct (nameE n n); [reflexivity|congruence].
  - destruct (name_eqb n k) eqn:E; cbn [aset]; rewrite E; [reflexivity|]. rewrite IH. reflexivity.
Qed.
Lemma AddSymbol_self al n m : (forall y, In y al -> y = n) -> AddSymbol al n m = AddSymbol [] n m.
Proof.
  intros H. unfold AddSymbol. destruct (aget name_eqb n (sm_names m)); [reflexivity|]. cbn zeta. f_equal. cbn [fold_left].
  induction al as [|y al IH]; [reflexivity|]. cbn [fold_left].
  rewrite (H y (or_introl eq_refl)), aset_twice. apply IH. intros z I. apply H. right. exact I.
Qed.

Section Same.
  Variables syms funcs : list (name * Z * Z).
  Hypothesis FOK : funcs_ok funcs.
  Hypothesis SAME : forall f, In f syms <-> In f funcs.

  Lemma same_addr f g : In f syms -> In g syms -> f_lo f = f_lo g -> f = g.
  Proof.
    intros If Ig E. apply SAME in If. apply SAME in Ig. destruct FOK as (_ & N & _).
    pose proof (filter_addr funcs f N If) as A. pose proof (filter_addr funcs g N Ig) as B. rewrite E in A. congruence.
  Qed.
  Lemma same_map : st_map (BuildSymbolMap syms) = st_map (BuildSymbolMap funcs).
  Proof.
    apply zsorted_ext; [apply (read_symbols_sorted syms)|apply (read_symbols_sorted funcs)|].
    intros [a [n z]]. rewrite (tab_In funcs FOK). rewrite <- SAME.
    change (BuildSymbolMap syms) with (read_symbols syms).
    rewrite <- zfind_In by apply read_symbols_sorted. rewrite C17_first_symbol_kept. split.
    - intros H. destruct (filter _ syms) as [|[[n' a'] z'] r] eqn:E; [discriminate|]. injection H as <- <-.
      assert (I : In (n', a', z') (filter (fun '(_, a0, _) => a0 =? a) syms)) by (rewrite E; left; auto).
      apply filter_In in I. destruct I as [I Q]. assert (a' = a) by lia. subst. auto.
    - intros I. destruct (filter (fun '(_, a0, _) => a0 =? a) syms) as [|[[n' a'] z'] r] eqn:E.
      + assert (I' : In (n, a, z) (filter (fun '(_, a0, _) => a0 =? a) syms)) by (apply filter_In; split; [exact I|apply Z.eqb_refl]).
        rewrite E in I'. destruct I'.
      + assert (I' : In (n', a', z') (filter (fun '(_, a0, _) => a0 =? a) syms)) by (rewrite E; left; auto).
        apply filter_In in I'. destruct I' as [I' Q]. assert (a' = a) by lia. subst a'.
        assert (X : (n', a, z') = (n, a, z)) by (apply same_addr; auto). injection X as -> ->. reflexivity.
  Qed.
  Lemma same_alias x y : In (x, y) (st_alias (BuildSymbolMap syms)) -> x = y.
  Proof.
    intros I. change (BuildSymbolMap syms) with (read_symbols syms) in I.
    apply C17_aliases in I. destruct I as (bef & aft & a & z & e & z0 & rest & E & F).
    assert (I : In (x, e, z0) (filter (fun '(_, a0, _) => a0 =? a) bef)) by (rewrite F; left; auto).
    apply filter_In in I. destruct I as [I Q]. assert (e = a) by lia. subst e.
    assert (X : (x, a, z0) = (y, a, z)).
    { apply same_addr; [rewrite E; apply in_or_app; left; exact I|rewrite E; apply in_elt|reflexivity]. }
    congruence.
  Qed.
  Lemma compute_same base pol stack_of dup use_lbr frac segs s :
    compute base pol stack_of dup use_lbr frac (BuildSymbolMap syms) segs s =
    compute base pol stack_of dup use_lbr frac (BuildSymbolMap funcs) segs s.
  Proof.
    unfold compute. rewrite same_map, (alias_nil funcs FOK).
    destruct (AggregatePerFunctionProfile _ _ _ _ _ _) as [ps| |]; [|reflexivity..]. cbn [obind].
    unfold ComputeProfile. f_equal. f_equal. unfold add_symbols.
    set (em := ProfileModel.ShouldEmit _). set (m0 := SMap [] []).
    assert (G : forall (l : profs) m, fold_left (fun m e => if em (part_count (GetOriginalName pol) ps (fst e)) then
                  AddSymbol (map snd (filter (fun e0 => name_eqb (fst e0) (fst e)) (st_alias (BuildSymbolMap syms)))) (fst e) m else m) l m =
                fold_left (fun m e => if em (part_count (GetOriginalName pol) ps (fst e)) then AddSymbol [] (fst e) m else m) l m).
    { induction l as [|e l IH]; intros m; [reflexivity|]. cbn [fold_left].
      rewrite (AddSymbol_self (map snd _)); [apply IH|].
      intros y I. apply in_map_iff in I. destruct I as ([x y'] & <- & I). apply filter_In in I. destruct I as [I Q].
      destruct (nameE (fst (x, y')) (fst e)) as [X|]; [|discriminate]. cbn [fst snd] in *. rewrite <- X. symmetry. apply same_alias. exact I. }
    apply G.
  Qed.
  Lemma create_same base pol stack_of dup use_lbr frac version extras_of headers k file :
    create_gcov base pol stack_of dup use_lbr frac version extras_of syms headers k file =
    create_gcov base pol stack_of dup use_lbr frac version extras_of funcs headers k file.
  Proof.
    unfold create_gcov. destruct (Append file samples0) as [[s ok]| |]; [|reflexivity..]. cbn [obind].
    destruct (negb ok); [reflexivity|]. rewrite compute_same. reflexivity.
  Qed.
End Same.
