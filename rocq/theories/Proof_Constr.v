(** C63: argument binding and the meaning of the type constructors. *)
From Verif Require Import Base Types Lexer Printer Construct Spec_Time Proof_Time Spec_Constr Proof_Ops.
Local Open Scope Z_scope.

(** ** Binding *)
Definition kwval (kw : list (str * targ)) (p : str * bool) (o : option targ) : Prop :=
  match assoc (fst p) kw with Some a => o = Some a | None => snd p = false /\ o = None end.
Lemma bind_kw_spec kw ps b : bind_kw ps kw = Ok b <-> Forall2 (kwval kw) ps b.
Proof.
  revert b. induction ps as [|[n r] ps IH]; intro b; cbn [bind_kw].
  - split; intro H; [injection H as <-; constructor|inversion H; auto].
  - assert (V : forall o, kwval kw (n, r) o <-> match assoc n kw with Some a => o = Some a | None => r = false /\ o = None end)
      by (intro; reflexivity).
    split; intro H.
    + destruct (assoc n kw) as [a|] eqn:Ea.
      * destruct (bind_kw ps kw) as [t|] eqn:Et; cbn [bind] in H; [|discriminate]. injection H as <-.
        constructor; [apply (proj2 (V _)); rewrite ?Ea; auto|now apply IH].
      * destruct r; [discriminate|]. destruct (bind_kw ps kw) as [t|] eqn:Et; cbn [bind] in H; [|discriminate]. injection H as <-.
        constructor; [apply (proj2 (V _)); rewrite ?Ea; auto|now apply IH].
    + inversion H as [|? o ? t H1 H2 E1 E2]; subst. apply IH in H2. apply (proj1 (V _)) in H1. rewrite H2. cbn [bind].
      revert H1. destruct (assoc n kw) as [a|]; intro H1; [subst; auto|]. destruct H1 as [-> ->]. reflexivity.
Qed.
Lemma bind_pos_spec kw ps args b : bind_pos ps args kw = Ok b <->
  exists ps1 ps2 b2, ps = ps1 ++ ps2 /\ length ps1 = length args /\ (forall p, In p ps1 -> assoc (fst p) kw = None) /\
    b = map Some args ++ b2 /\ Forall2 (kwval kw) ps2 b2.
Proof.
  revert ps b. induction args as [|a args IH]; intros ps b.
  - assert (X : bind_pos ps [] kw = bind_kw ps kw) by (destruct ps; reflexivity). rewrite X, bind_kw_spec. split.
    + intro H. exists [], ps, b. split; auto. split; auto. split; [intros p []|]. auto.
    + intros [ps1 [ps2 [b2 [E1 [E2 [_ [-> H]]]]]]]. destruct ps1; [|discriminate]. cbn in E1. subst. exact H.
  - destruct ps as [|[n r] ps]; cbn [bind_pos].
    + split; [discriminate|]. intros [[|] [ps2 [b2 [E1 [E2 _]]]]]; discriminate.
    + split.
      * destruct (assoc n kw) eqn:En; [discriminate|]. destruct (bind_pos ps args kw) as [t|] eqn:Et; cbn [bind]; [|discriminate].
        intro H. injection H as <-. apply IH in Et as [ps1 [ps2 [b2 [-> [E2 [E3 [-> E5]]]]]]].
        exists ((n, r) :: ps1), ps2, b2. repeat split; auto; [cbn; congruence|]. intros p [<-|Hp]; auto.
      * intros [ps1 [ps2 [b2 [E1 [E2 [E3 [-> E5]]]]]]]. destruct ps1 as [|p ps1]; [discriminate|]. injection E1 as <- ->.
        pose proof (E3 _ (or_introl eq_refl)) as E3'. cbn [fst] in E3'. rewrite E3'.
        assert (bind_pos (ps1 ++ ps2) args kw = Ok (map Some args ++ b2)) as ->; [|reflexivity].
        apply IH. exists ps1, ps2, b2. injection E2 as E2. repeat split; auto. intros p Hp. apply E3. right; auto.
Qed.
Lemma NoDup_nth_fst {B} (l : list (str * B)) i j n x y : NoDup (map fst l) ->
  nth_error l i = Some (n, x) -> nth_error l j = Some (n, y) -> i = j.
Proof.
  intros H Hi Hj. rewrite NoDup_nth_error in H. apply H.
  - rewrite map_length. apply nth_error_Some. congruence.
  - rewrite !nth_error_map, Hi, Hj. reflexivity.
Qed.
Lemma F2_nth {A B} (P : A -> B -> Prop) l m : Forall2 P l m <->
  length m = length l /\ forall i a, nth_error l i = Some a -> exists b, nth_error m i = Some b /\ P a b.
Proof.
  split.
  - intro H. induction H as [|x y l m Hxy H IH].
    + split; auto. intros [|i] a Hi; discriminate.
    + destruct IH as [IH1 IH2]. split; [cbn; congruence|]. intros [|i] a Hi; cbn in *; [injection Hi as <-; eauto|eauto].
  - revert m. induction l as [|x l IH]; intros [|y m] [H1 H2]; try discriminate; constructor.
    + destruct (H2 O x eq_refl) as [b [E H]]. injection E as ->. auto.
    + apply IH. split; [cbn in H1; congruence|]. intros i a Hi. exact (H2 (S i) a Hi).
Qed.
Lemma call_bind_spec ps args kw b : NoDup (map fst ps) -> NoDup (map fst kw) ->
  call_bind ps args kw = Ok b <-> Bound ps args kw b.
Proof.
  intros HP HK. unfold call_bind.
  destruct (forallb (fun p => mem_str (fst p) (map fst ps)) kw) eqn:Ef.
  2:{ split; [discriminate|]. intro H. exfalso. assert (X : forallb (fun p => mem_str (fst p) (map fst ps)) kw = true).
    { apply forallb_forall. intros [n a] Hin. destruct (B_keyword _ _ _ _ H n a Hin) as [i [r [Hi _]]].
      apply mem_str_In. apply nth_error_In in Hi. apply (in_map fst) in Hi. exact Hi. }
    congruence. }
  rewrite bind_pos_spec. split.
  - intros [ps1 [ps2 [b2 [-> [E2 [E3 [-> E5]]]]]]]. apply F2_nth in E5 as [L5 E5]. split.
    + rewrite !app_length, map_length. lia.
    + rewrite app_length. lia.
    + intros i a Hi. rewrite nth_error_app1 by (rewrite map_length; apply nth_error_Some; congruence).
      rewrite nth_error_map, Hi. reflexivity.
    + intros n a Hin. rewrite forallb_forall in Ef. specialize (Ef _ Hin). apply mem_str_In in Ef. cbn [fst] in Ef.
      apply in_map_iff in Ef as [[n' r] [En Hn]]. cbn in En. subst n'. apply in_app_or in Hn as [Hn|Hn].
      * specialize (E3 _ Hn). cbn [fst] in E3. apply assoc_None in E3. elim E3. apply (in_map fst) in Hin. exact Hin.
      * apply In_nth_error in Hn as [i Hi]. exists (length ps1 + i)%nat, r.
        rewrite !nth_error_app2 by (rewrite ?map_length; lia). replace (length ps1 + i - length ps1)%nat with i by lia.
        rewrite map_length. replace (length ps1 + i - length args)%nat with i by lia. split; auto. split; [lia|].
        destruct (E5 _ _ Hi) as [o [Ho Hv]]. unfold kwval in Hv. cbn [fst snd] in Hv. rewrite (assoc_NoDup _ _ _ HK Hin) in Hv.
        congruence.
    + intros i n r Hi Hle Hn. rewrite nth_error_app2 in Hi by lia. destruct (E5 _ _ Hi) as [o [Ho Hv]].
      unfold kwval in Hv. cbn [fst snd] in Hv. apply assoc_None in Hn. rewrite Hn in Hv. destruct Hv as [-> ->]. split; auto.
      rewrite nth_error_app2 by (rewrite map_length; lia). rewrite map_length. rewrite <- E2. exact Ho.
  - intro H. exists (firstn (length args) ps), (skipn (length args) ps), (skipn (length args) b).
    pose proof (B_not_too_many _ _ _ _ H) as Hl. pose proof (B_length _ _ _ _ H) as Hb.
    rewrite firstn_skipn. split; auto. split; [rewrite firstn_length; lia|]. split; [|split].
    + intros [n r] Hp. apply In_nth_error in Hp as [i Hi]. cbn [fst].
      assert (Hlt : (i < length args)%nat).
      { assert (i < length (firstn (length args) ps))%nat by (apply nth_error_Some; congruence). rewrite firstn_length in *. lia. }
      assert (Hi' : nth_error ps i = Some (n, r)).
      { rewrite <- (firstn_skipn (length args) ps). rewrite nth_error_app1; auto. apply nth_error_Some. congruence. }
      apply assoc_None. intro Hn. apply in_map_iff in Hn as [[n' a] [En Hin]]. cbn in En. subst n'.
      destruct (B_keyword _ _ _ _ H n a Hin) as [j [r' [Hj [Hle _]]]]. pose proof (NoDup_nth_fst _ _ _ _ _ _ HP Hi' Hj). lia.
    + assert (X : firstn (length args) b = map Some args); [|rewrite <- X, firstn_skipn; auto].
      clear - H Hl Hb. pose proof (B_positional _ _ _ _ H) as BP. clear H.
      assert (Hl' : (length args <= length b)%nat) by lia. clear Hl Hb ps kw. revert b Hl' BP.
      induction args as [|a args IH]; intros [|o b] Hl' BP; cbn in *; try lia; auto.
      pose proof (BP O a eq_refl) as B0. cbn in B0. injection B0 as ->. f_equal. apply IH; [lia|]. intros i x Hi. exact (BP (S i) x Hi).
    + apply F2_nth. split; [rewrite !skipn_length; lia|]. intros i [n r] Hi.
      assert (N : forall {A} (l : list A) k j, nth_error (skipn k l) j = nth_error l (k + j)).
      { clear. intros A l k. revert l. induction k as [|k IH]; intros l j; auto. destruct l; cbn; [destruct j; auto|apply IH]. }
      rewrite N in Hi. unfold kwval. cbn [fst snd]. rewrite N. destruct (assoc n kw) as [a|] eqn:Ea.
      * apply assoc_In in Ea. destruct (B_keyword _ _ _ _ H n a Ea) as [j [r' [Hj [Hle Hv]]]].
        pose proof (NoDup_nth_fst _ _ _ _ _ _ HP Hi Hj) as Ei. rewrite <- Ei in Hv. eauto.
      * apply assoc_None in Ea. destruct (B_default _ _ _ _ H _ _ _ Hi ltac:(lia) Ea) as [-> Hv]. eauto.
Qed.
Lemma bind_kw_err kw ps : match bind_kw ps kw with Ok _ => True | Raise e => e = TypeErr end.
Proof.
  induction ps as [|[n r] ps IH]; cbn [bind_kw]; auto. destruct (assoc n kw), r; auto; destruct (bind_kw ps kw); cbn; auto.
Qed.
Lemma bind_pos_err kw args ps : match bind_pos ps args kw with Ok _ => True | Raise e => e = TypeErr end.
Proof.
  revert ps. induction args as [|a args IH]; intro ps; [destruct ps; [exact I|apply bind_kw_err]|].
  destruct ps as [|[n r] ps]; cbn [bind_pos]; auto. destruct (assoc n kw); auto. specialize (IH ps). destruct (bind_pos ps args kw); cbn; auto.
Qed.
Lemma call_bind_err ps args kw : match call_bind ps args kw with Ok _ => True | Raise e => e = TypeErr end.
Proof. unfold call_bind. destruct (forallb _ kw); auto. apply bind_pos_err. Qed.

(** ** What the constructors build *)
Section M.
  Variable E : env.
  Variable dsh : str -> res ty.

  Lemma Unwrap_spec t u : Unwrap t u <-> launder_ty t = u.
  Proof.
    split.
    - intros [n t'|t' H]; [reflexivity|]. destruct t' as [| | | | | | | | | | | | | | |n ps| | | | | | |]; try reflexivity.
      destruct ps as [|x [|y ps]]; try reflexivity. elim (H n x). reflexivity.
    - intros <-. destruct t; try (apply UW_other; discriminate).
      match goal with |- Unwrap (DataShapeT ?n ?ps) _ => destruct ps as [|x [|y ps]] end;
        [apply UW_other; discriminate|apply UW_single|apply UW_other; discriminate].
  Qed.
  Lemma AsType_spec a t : AsType dsh a t <-> targ_launder dsh a = Ok t.
  Proof.
    destruct a as [z|b|s|d|l]; cbn [targ_launder launder]; (split; intro H;
      [inversion H as [z' Hz|b'|s' t' u' Hs Hu|t' u' Hu]; subst|]); try discriminate.
    - unfold mk_fixed. destruct (Z.ltb_spec z 0); [lia|reflexivity].
    - unfold mk_fixed in H. destruct (Z.ltb_spec z 0) as [Hz|Hz]; [discriminate|]. injection H as <-. apply AT_int. exact Hz.
    - destruct b; reflexivity.
    - destruct b; injection H as <-; [apply (AT_bool _ true)|apply (AT_bool _ false)].
    - rewrite Hs. apply Unwrap_spec in Hu. cbn. congruence.
    - destruct (dsh s) as [u|] eqn:Es; cbn in H; [|discriminate]. injection H as <-. eapply AT_str; [exact Es|]. apply Unwrap_spec. reflexivity.
    - apply Unwrap_spec in Hu. congruence.
    - injection H as <-. apply AT_ds. apply Unwrap_spec. reflexivity.
  Qed.
  Lemma Elements_spec a l : Elements a l <-> targ_iter a = Ok l.
  Proof.
    destruct a as [z|b|s|d|m]; cbn [targ_iter]; (split; intro H; [inversion H as [l'|s'|n ps|t Ht Hr Hs]; subst|]);
      try discriminate; try reflexivity; try (injection H as <-); try constructor.
    - destruct d; try reflexivity; [edestruct Ht|edestruct Hr|edestruct Hs]; reflexivity.
    - destruct d; try discriminate H; injection H as <-; try (apply EL_type; discriminate). apply EL_parameters.
  Qed.
  Lemma AsText_spec a s : AsText E a s <-> targ_str E a = Ok s.
  Proof.
    destruct a as [z|b|s'|d|m]; cbn [targ_str]; (split; intro H; [inversion H; subst|]);
      try discriminate; try reflexivity; try (injection H as <-); try constructor.
  Qed.
  Lemma AsLiteral_spec a s : AsLiteral a s <-> targ_lit a = Ok s.
  Proof.
    destruct a as [z|b|s'|d|m]; cbn [targ_lit]; (split; intro H; [inversion H; subst|]);
      try discriminate; try reflexivity; try (injection H as <-); constructor.
  Qed.
  Lemma Falsy_spec a : Falsy a <-> falsy a = true.
  Proof.
    unfold Falsy. split.
    - intros [->|[->|[->| ->]]]; reflexivity.
    - destruct a as [z|b|[|c s]|d|[|x l]]; cbn; try discriminate; auto.
      + intro H. apply Z.eqb_eq in H. subst. auto.
      + destruct b; [discriminate|auto].
  Qed.
  Lemma F2_iff {A B} (P Q : A -> B -> Prop) l m : (forall a b, P a b <-> Q a b) -> Forall2 P l m <-> Forall2 Q l m.
  Proof. intro H. split; intro F; induction F; constructor; auto; apply H; auto. Qed.
  Lemma TupleItem_spec a t : TupleItem a t <-> tuple_item dsh (targ_parg a) = Ok t.
  Proof.
    destruct a as [z|b|s|d|l]; cbn [targ_parg tuple_item].
    - split; [intro H; inversion H|]. cbn. unfold mk_fixed. destruct (z <? 0); cbn; discriminate.
    - split; [intro H; inversion H|]. destruct b; cbn; discriminate.
    - split; [intro H; inversion H|]. discriminate.
    - destruct (is_DataShape d) eqn:Ed.
      + split; intro H.
        * inversion H as [n ps|t' H1 H2]; subst; [reflexivity|]. destruct d; try discriminate. edestruct H1; reflexivity.
        * injection H as <-. destruct d; try discriminate. constructor.
      + assert (X : forall n ps, d <> DataShapeT n ps) by (intros n ps ->; discriminate).
        assert (L : launder_ty d = d) by (apply Unwrap_spec; apply UW_other; intros n u; apply X).
        unfold mk_datashape, mapM, check_datashape, launder. cbn [bind]. rewrite L. cbn [last removelast forallb].
        split; intro H.
        * inversion H as [n ps|t' H1 H2]; subst; [discriminate|]. rewrite H2. reflexivity.
        * destruct (may_be_measure d) eqn:Em; cbn [negb] in H; [|discriminate]. injection H as <-. apply TI_measure; auto.
    - split; [intro H; inversion H|]. discriminate.
  Qed.
  Lemma mapM_map {A B C} (f : B -> res C) (g : A -> B) l : mapM f (map g l) = mapM (fun x => f (g x)) l.
  Proof. induction l as [|x l IH]; auto. cbn [map]. rewrite !mapM_cons, IH. reflexivity. Qed.

  Lemma Pairs_spec l m fs : Pairs E dsh l m fs <->
    mapM (fun p => targ_str E (fst p)) (combine l m) = Ok (map fst fs) /\
    mapM (fun p => targ_launder dsh (snd p)) (combine l m) = Ok (map snd fs).
  Proof.
    split.
    - intro H. induction H as [l|l|a l d m n t fs Ha Hd H [IH1 IH2]]; [auto|destruct l; auto|].
      cbn [combine map fst snd]. rewrite !mapM_cons. cbn [fst snd]. apply AsText_spec in Ha. apply AsType_spec in Hd.
      rewrite Ha, Hd, IH1, IH2. auto.
    - revert m fs. induction l as [|a l IH]; intros m fs [H1 H2].
      + cbn in H1. destruct fs; [constructor|discriminate].
      + destruct m as [|d m].
        * cbn in H1. destruct fs; [constructor|discriminate].
        * cbn [combine] in H1, H2. rewrite mapM_cons in H1. rewrite mapM_cons in H2. cbn [fst snd] in H1, H2.
          destruct (targ_str E a) as [n|] eqn:En; cbn [bind] in H1; [|discriminate].
          destruct (targ_launder dsh d) as [t|] eqn:Et; cbn [bind] in H2; [|discriminate].
          destruct (mapM (fun p => targ_str E (fst p)) _) as [ns|] eqn:E1; cbn [bind] in H1; [|discriminate].
          destruct (mapM (fun p => targ_launder dsh (snd p)) _) as [ts|] eqn:E2; cbn [bind] in H2; [|discriminate].
          destruct fs as [|[n' t'] fs]; [discriminate|]. cbn [map fst snd] in H1, H2. injection H1 as -> ->. injection H2 as -> ->.
          apply PR_cons; [apply AsText_spec; auto|apply AsType_spec; auto|]. apply IH. auto.
  Qed.
  Lemma c_struct_spec a b t : c_struct E dsh a b = Ok t <->
    exists l m fs, Elements a l /\ Elements b m /\ Pairs E dsh l m fs /\ NoDup (map fst fs) /\ t = RecordT fs.
  Proof.
    unfold c_struct. split.
    - destruct (targ_iter a) as [l|] eqn:Ea; cbn [bind]; [|discriminate].
      destruct (targ_iter b) as [m|] eqn:Eb; cbn [bind]; [|discriminate].
      destruct (mapM (fun p => targ_str E (fst p)) _) as [ns|] eqn:E1; cbn [bind]; [|discriminate].
      destruct (mapM (fun p => targ_launder dsh (snd p)) _) as [ts|] eqn:E2; cbn [bind]; [|discriminate].
      destruct (nodup_str ns) eqn:En; [|discriminate]. intro H. injection H as <-. exists l, m, (combine ns ts).
      assert (L : length ns = length ts) by (apply mapM_length in E1, E2; congruence).
      assert (F1 : map fst (combine ns ts) = ns) by (clear - L; revert ts L; induction ns; intros [|? ?] L; cbn in *; try discriminate; auto; f_equal; auto).
      assert (F2 : map snd (combine ns ts) = ts) by (clear - L; revert ts L; induction ns; intros [|? ?] L; cbn in *; try discriminate; auto; f_equal; auto).
      split; [apply Elements_spec; auto|]. split; [apply Elements_spec; auto|]. split; [|split; auto].
      + apply Pairs_spec. rewrite F1, F2. auto.
      + rewrite F1. apply nodup_str_NoDup. auto.
    - intros [l [m [fs [H1 [H2 [H3 [H4 ->]]]]]]]. apply Elements_spec in H1, H2. apply Pairs_spec in H3 as [H3 H3'].
      rewrite H1, H2. cbn [bind]. rewrite H3, H3'. cbn [bind]. apply nodup_str_NoDup in H4. rewrite H4.
      do 2 f_equal. clear. induction fs as [|[n t] fs IH]; cbn; congruence.
  Qed.
  Lemma c_tuple_spec a t : c_tuple dsh a = Ok t <-> exists l ts, Elements a l /\ Forall2 TupleItem l ts /\ t = TupleT ts.
  Proof.
    unfold c_tuple, mk_tuple. split.
    - destruct (targ_iter a) as [l|] eqn:Ea; cbn [bind]; [|discriminate]. rewrite mapM_map.
      destruct (mapM _ l) as [ts|] eqn:E1; cbn [bind]; [|discriminate]. intro H. injection H as <-. exists l, ts.
      split; [apply Elements_spec; auto|]. split; auto. apply mapM_Ok_Forall2 in E1. eapply F2_iff; [apply TupleItem_spec|]. exact E1.
    - intros [l [ts [H1 [H2 ->]]]]. apply Elements_spec in H1. rewrite H1. cbn [bind]. rewrite mapM_map.
      assert (mapM (fun x => tuple_item dsh (targ_parg x)) l = Ok ts) as ->; [|reflexivity].
      apply mapM_Ok_Forall2. eapply F2_iff; [|exact H2]. intros; symmetry; apply TupleItem_spec.
  Qed.
  Lemma c_funcproto_spec a b t : c_funcproto a b = Ok t <->
    exists l ts r, Elements a l /\ l = map ADs ts /\ b = ADs r /\ t = FunctionT (ts ++ [r]).
  Proof.
    unfold c_funcproto. split.
    - destruct (targ_iter a) as [l|] eqn:Ea; cbn [bind]; [|discriminate].
      destruct (mapM targ_ds l) as [ts|] eqn:E1; cbn [bind]; [|discriminate].
      destruct b as [| | |r|]; cbn; try discriminate. intro H. injection H as <-. exists l, ts, r.
      split; [apply Elements_spec; auto|]. split; auto. apply mapM_Ok_Forall2 in E1. clear Ea. induction E1 as [|x y l ts Hx F IH]; auto.
      destruct x; try discriminate. injection Hx as ->. cbn. congruence.
    - intros [l [ts [r [H1 [-> [-> ->]]]]]]. apply Elements_spec in H1. rewrite H1. cbn [bind].
      assert (mapM targ_ds (map ADs ts) = Ok ts) as ->; [|reflexivity].
      clear. induction ts as [|x ts IH]; auto. cbn [map]. rewrite mapM_cons, IH. reflexivity.
  Qed.
  Lemma upper_spec c : isupper (e_uni E) c = true <-> UpperLetter E c.
  Proof.
    unfold isupper, UpperLetter. destruct (N.ltb_spec c 128).
    - unfold is_upper, in_range. rewrite andb_true_iff, !N.leb_le. cbn. split; [|lia]. intro H'. left. lia.
    - split; [intro H'; right; split; auto; lia|]. intros [H'|[_ H']]; auto. cbn in H'. lia.
  Qed.
  Lemma c_typevar_spec a t : c_typevar E a = Ok t <-> exists c s, a = AStr (c :: s) /\ UpperLetter E c /\ t = TypeVarT (c :: s).
  Proof.
    unfold c_typevar. split.
    - destruct a as [| |s|d|l]; try discriminate; [|destruct d; try discriminate; destruct parameters; discriminate|destruct l as [|[] l]; discriminate].
      destruct s as [|c s]; cbn [mk_typevar]; [discriminate|].
      destruct (isupper _ c) eqn:Eu; [|discriminate]. intro H. injection H as <-. exists c, s. apply upper_spec in Eu. auto.
    - intros [c [s [-> [H ->]]]]. cbn [mk_typevar]. apply upper_spec in H. rewrite H. reflexivity.
  Qed.
  Lemma c_timedelta_spec a t : c_timedelta E (Some a) = Ok t <-> exists s u, AsText E a s /\ UnitOf s u /\ t = TimeDeltaT u.
  Proof.
    assert (X : c_timedelta E (Some a) = Ok t <-> exists s, targ_str E a = Ok s /\ mk_timedelta s = Ok t).
    { destruct a; cbn; (split; [intro H|intros [s' [H1 H2]]]); try discriminate; try (injection H1 as <-; auto); eauto. }
    rewrite X. unfold mk_timedelta. split.
    - intros [s [H1 H2]]. destruct (normalize_time_unit s) as [u|] eqn:Es; cbn in H2; [|discriminate]. injection H2 as <-.
      exists s, u. split; [apply AsText_spec; auto|]. split; auto. apply normalize_UnitOf; auto.
    - intros [s [u [H1 [H2 ->]]]]. exists s. split; [apply AsText_spec; auto|]. apply normalize_UnitOf in H2. rewrite H2. reflexivity.
  Qed.
  Lemma c_categorical_spec a type ordered t : c_categorical E a type ordered = Ok t <->
    exists l lits u o, Elements a l /\ Forall2 AsLiteral l lits /\
      match type with
      | Some (ADs d) => u = measure d
      | Some x => Falsy x /\ exists d, e_disc E lits = Ok d /\ u = measure d
      | None => exists d, e_disc E lits = Ok d /\ u = measure d
      end /\ (ordered = None /\ o = false \/ ordered = Some (ABool o)) /\ t = CategoricalT lits u o.
  Proof.
    assert (FL : forall l lits, Forall2 AsLiteral l lits <-> mapM targ_lit l = Ok lits).
    { intros. rewrite mapM_Ok_Forall2. apply F2_iff. apply AsLiteral_spec. }
    assert (O : forall lits u, match ordered with None => Ok (CategoricalT lits u false) | Some (ABool b) => Ok (CategoricalT lits u b)
        | Some _ => Raise NotModelled end = Ok t <-> exists o, (ordered = None /\ o = false \/ ordered = Some (ABool o)) /\ t = CategoricalT lits u o).
    { intros lits u. split.
      - destruct ordered as [[| | | |]|]; try discriminate; intro H; injection H as <-; eauto.
      - intros [o [[[-> ->]| ->] ->]]; reflexivity. }
    unfold c_categorical. split.
    - destruct (targ_iter a) as [l|] eqn:Ea; cbn [bind]; [|discriminate].
      destruct (mapM targ_lit l) as [lits|] eqn:El; cbn [bind]; [|discriminate].
      destruct (match type with None => _ | Some _ => _ end) as [u|] eqn:Eu; cbn [bind]; [|discriminate].
      intro H. apply O in H as [o [H1 H2]]. exists l, lits, u, o. split; [apply Elements_spec; auto|]. split; [apply FL; auto|].
      split; auto. assert (D : (let! t := e_disc E lits in Ok (measure t)) = Ok u -> exists d, e_disc E lits = Ok d /\ u = measure d).
      { destruct (e_disc E lits) as [d|] eqn:Ed; cbn; [|discriminate]. intro X. injection X as <-. eauto. }
      destruct type as [[z|b|s|d|m]|]; auto; try (destruct (falsy _) eqn:Ef in Eu; [|discriminate]; apply Falsy_spec in Ef; auto).
      injection Eu as <-. reflexivity.
    - intros [l [lits [u [o [H1 [H2 [H3 [H4 ->]]]]]]]]. apply Elements_spec in H1. apply FL in H2. rewrite H1. cbn [bind]. rewrite H2. cbn [bind].
      assert (X : (match type with None => let! t := e_disc E lits in Ok (measure t) | Some (ADs t0) => Ok (measure t0)
         | Some a0 => if falsy a0 then let! t := e_disc E lits in Ok (measure t) else Raise AttributeErr end) = Ok u).
      { destruct type as [[z|b|s|d|m]|]; try (destruct H3 as [Hf [d' [Hd ->]]]; apply Falsy_spec in Hf; rewrite Hf, Hd; reflexivity).
        - subst; auto.
        - destruct H3 as [d' [Hd ->]]. rewrite Hd. reflexivity. }
      rewrite X. cbn [bind]. apply O. eauto.
  Qed.
End M.
