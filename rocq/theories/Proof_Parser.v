(** Consequences of the relational invariant: termination (C04), well-formed results
    (C07), error positions (C08), independence of blanks (C02). *)
From Verif Require Import Base Types Lexer Printer Construct Parser Proof_ParserRel
  Spec_Lexer Proof_Lexer Proof_Time.

Definition good (t : ty) : Prop := wf t = true /\ no_typeset t = true.
Definition gds (t : ty) : Prop := is_DataShape t = true /\ good t.

(** Assumption on the oracle for [discover] on a tuple of literals: it returns a
    well-formed datashape or raises (and does not raise a DataShapeSyntaxError). *)
Definition disc_ok (E : env) : Prop := forall l,
  match e_disc E l with
  | Ok t => good t
  | Raise e => match e with SyntaxErr _ _ | OutOfFuel => False | _ => True end
  end.

(** ** generic lemmas on [RV] *)
Section RVlemmas.
  Variable pr : nat -> nat -> Prop.
  Notation RV := (RV pr).
  Lemma RV_Ok {A} (Q : A -> Prop) a : Q a -> RV Q (Ok a) (Ok a).
  Proof. simpl; auto. Qed.
  Definition plain_exn (e : exn) : Prop := match e with SyntaxErr _ _ | OutOfFuel => False | _ => True end.
  Lemma RV_Raise {A} (Q : A -> Prop) e : plain_exn e -> RV Q (Raise e) (Raise e).
  Proof. destruct e; simpl; auto; contradiction. Qed.
  Lemma RVbind {A B} (Q : A -> Prop) (Q' : B -> Prop) x y f g :
    RV Q x y -> (forall a, Q a -> RV Q' (f a) (g a)) -> RV Q' (bind x f) (bind y g).
  Proof.
    intros H Hf. destruct x, y; simpl in H; try contradiction; cbn [bind]; [|exact H].
    destruct H as [<- H]. auto.
  Qed.
  Lemma RVmono {A} (Q Q' : A -> Prop) x y : (forall a, Q a -> Q' a) -> RV Q x y -> RV Q' x y.
  Proof. intros HQ H. destruct x, y; simpl in *; auto. intuition. Qed.
  Lemma mapM_RV {A B} (Q : B -> Prop) (f g : A -> res B) l :
    Forall (fun a => RV Q (f a) (g a)) l -> RV (Forall Q) (mapM f l) (mapM g l).
  Proof.
    induction 1 as [|a l Ha H IH]; [simpl; auto|]. rewrite !mapM_cons.
    eapply RVbind; [exact Ha|]. intros b Hb. eapply RVbind; [exact IH|]. intros bs Hbs.
    apply RV_Ok. constructor; auto.
  Qed.
End RVlemmas.
Lemma RV_pr {A} (pr pr' : nat -> nat -> Prop) (Q : A -> Prop) x y :
  (forall p q, pr p q -> pr' p q) -> RV pr Q x y -> RV pr' Q x y.
Proof.
  intros Hp H. destruct x as [a|e], y as [b|e']; simpl in *; auto. destruct e; simpl in *; auto.
  destruct H as [p2 [H1 H2]]. eauto.
Qed.

(** ** well-formedness of the constructors *)
Lemma good_launder t : good t -> good (launder_ty t) /\ laundered (launder_ty t) = true.
Proof.
  intros [W T]. destruct t; try (split; [split; auto|reflexivity]).
  destruct parameters as [|x [|y l]]; try (split; [split; auto|reflexivity]).
  cbn [launder_ty]. cbn [wf forallb] in W. cbn [no_typeset forallb] in T.
  rewrite !andb_true_r in *. apply andb_true_iff in W as [_ W]. apply andb_true_iff in W as [W1 W2].
  split; [split; auto|]. exact W1.
Qed.
Lemma launder_id t : laundered t = true -> launder_ty t = t.
Proof. destruct t; try reflexivity. destruct parameters as [|x [|y l]]; auto. discriminate. Qed.

Lemma mapM_launder_PTy dsh l : mapM (launder dsh) (map PTy l) = Ok (map launder_ty l).
Proof. induction l as [|t l IH]; [reflexivity|]. cbn [map]. rewrite mapM_cons, IH. reflexivity. Qed.

Lemma check_good pr name ps : ps <> [] -> Forall (fun t => good t /\ laundered t = true) ps ->
  RV pr gds (check_datashape name ps) (check_datashape name ps).
Proof.
  intros Hne H. unfold check_datashape. destruct (may_be_measure (last ps NullT)) eqn:Em; cbn [negb];
    [|apply RV_Raise; exact I].
  destruct (forallb may_be_dim (removelast ps)) eqn:Ed; [|apply RV_Raise; exact I].
  apply RV_Ok. split; [reflexivity|]. split.
  - cbn [wf]. rewrite Em, Ed. destruct ps; [congruence|]. cbn [andb].
    apply forallb_forall. intros x Hx. rewrite Forall_forall in H. destruct (H x Hx) as [[W _] L].
    rewrite W, L. reflexivity.
  - cbn [no_typeset]. apply forallb_forall. intros x Hx. rewrite Forall_forall in H. apply H; auto.
Qed.
Lemma mk_ds_good pr ps : ps <> [] -> Forall good ps -> RV pr gds (mk_ds ps) (mk_ds ps).
Proof.
  intros Hne H. unfold mk_ds, mk_datashape.
  destruct ps as [|p ps]; [congruence|]. cbn [map].
  assert (G : RV pr gds (let! qs := mapM (launder no_dsh) (PTy p :: map PTy ps) in check_datashape None qs)
               (let! qs := mapM (launder no_dsh) (PTy p :: map PTy ps) in check_datashape None qs)).
  { change (PTy p :: map PTy ps) with (map PTy (p :: ps)). rewrite mapM_launder_PTy. cbn [bind].
    apply check_good; [discriminate|]. apply Forall_map. eapply Forall_impl; [|exact H]. apply good_launder. }
  destruct ps; exact G.
Qed.

Lemma good_params t : good t -> Forall good (ds_params t).
Proof.
  intros [W T]. destruct t; try (repeat constructor; auto; fail).
  cbn [ds_params]. cbn [wf no_typeset] in *. apply andb_true_iff in W as [_ W].
  apply Forall_forall. intros x Hx. rewrite forallb_forall in W, T. specialize (W x Hx). apply andb_true_iff in W as [_ W].
  split; auto.
Qed.
Lemma last_In {A} (l : list A) d : l <> [] -> In (last l d) l.
Proof.
  intro H. destruct (list_rev_case l) as [->|[l' [x ->]]]; [congruence|]. rewrite last_last. apply in_app_iff. right; left; reflexivity.
Qed.
Lemma good_measure t : good t -> good (measure t).
Proof.
  intro H. destruct t; auto. pose proof (good_params _ H) as F. cbn [ds_params] in F. cbn [measure].
  rewrite Forall_forall in F. apply F. apply last_In. destruct H as [W _]. cbn [wf] in W. destruct parameters; discriminate.
Qed.

Inductive garg (K : str -> Prop) : targ -> Prop :=
| GI z : garg K (AInt z)
| GB b : garg K (ABool b)
| GS s : K s -> garg K (AStr s)
| GD t : good t -> garg K (ADs t)
| GL l : Forall (garg K) l -> garg K (AList l).
Definition gval (K : str -> Prop) (v : tval) : Prop := match v with VStr s => K s | _ => True end.
(** texts of bounded length *)
Definition upto (n : nat) (s : str) : Prop := (length s <= n)%nat.
(** with a text also its single characters *)
Definition by_char (K : str -> Prop) : Prop := forall s c, K s -> In c s -> K [c].
Lemma upto_by_char n : by_char (upto n).
Proof. intros s c H Hc. unfold upto in *. destruct s; [contradiction|simpl in *; lia]. Qed.

Section Constr.
  Variable E : env.
  Hypothesis HE : disc_ok E.
  Variable pr : nat -> nat -> Prop.
  Variable dsh1 dsh2 : str -> res ty.
  Variable K : str -> Prop.
  Hypothesis HK : by_char K.
  Hypothesis Hdsh : forall s, K s -> RV pr gds (dsh1 s) (dsh2 s).
  Notation RV := (RV pr).
  Definition goodl (t : ty) : Prop := good t /\ laundered t = true.

  Ltac raise := apply RV_Raise; exact I.

  Lemma mk_fixed_rel z : RV goodl (mk_fixed z) (mk_fixed z).
  Proof.
    unfold mk_fixed. destruct (z <? 0)%Z eqn:Ez; [raise|]. apply RV_Ok. split; [|reflexivity].
    split; [|reflexivity]. cbn [wf]. apply Z.ltb_ge in Ez. apply Z.leb_le. lia.
  Qed.
  Definition gparg (x : parg) : Prop :=
    match x with PStr s => K s | PTy t => good t | _ => True end.
  Lemma launder_rel x : gparg x -> RV goodl (launder dsh1 x) (launder dsh2 x).
  Proof.
    destruct x as [z|s|t|]; cbn [gparg launder]; intro H.
    - apply mk_fixed_rel.
    - eapply RVbind; [apply Hdsh; exact H|]. intros t [_ Ht]. apply RV_Ok. apply good_launder; auto.
    - apply RV_Ok. apply good_launder; auto.
    - raise.
  Qed.
  Lemma targ_launder_rel a : garg K a -> RV goodl (targ_launder dsh1 a) (targ_launder dsh2 a).
  Proof.
    intro H. destruct H; cbn [targ_launder]; apply launder_rel; simpl; auto.
  Qed.
  Lemma targ_parg_good a : garg K a -> gparg (targ_parg a).
  Proof. intro H. destruct H; simpl; auto. Qed.
  Lemma targ_iter_rel a : garg K a -> RV (Forall (garg K)) (targ_iter a) (targ_iter a).
  Proof.
    intro H. destruct H as [z|b|s Hs|t Ht|l Hl]; cbn [targ_iter]; try raise.
    - apply RV_Ok. apply Forall_map. apply Forall_forall. intros c Hc. constructor. eapply HK; eauto.
    - assert (F : RV (Forall (garg K)) (Ok (map ADs (ds_params t))) (Ok (map ADs (ds_params t)))).
      { apply RV_Ok. apply Forall_map. eapply Forall_impl; [|apply good_params; exact Ht]. intros; constructor; auto. }
      destruct t; try exact F; raise.
    - apply RV_Ok; auto.
  Qed.
  Lemma targ_str_rel a : RV (fun _ => True) (targ_str E a) (targ_str E a).
  Proof. destruct a; cbn [targ_str]; try (apply RV_Ok; exact I). raise. Qed.

  Lemma record_rel ns ts : Forall goodl ts -> nodup_str ns = true ->
    RV good (Ok (RecordT (combine ns ts))) (Ok (RecordT (combine ns ts))).
  Proof.
    intros Hts End.
      apply RV_Ok. 
      assert (Hc : forall x, In x (combine ns ts) -> goodl (snd x)).
      { intros [n t] Hx. apply in_combine_r in Hx. rewrite Forall_forall in Hts. apply Hts; auto. }
      split.
      + cbn [wf]. apply andb_true_iff. split.
        * apply nodup_str_NoDup. apply nodup_str_NoDup in End. clear -End. revert ts.
          induction ns as [|n ns IH]; intros [|t ts]; simpl; try constructor.
          -- inversion End; subst. intro Hin. apply H1. apply in_map_iff in Hin as [[a b] [<- Hin]].
             apply in_combine_l in Hin. exact Hin.
          -- inversion End; subst. apply IH; auto.
        * apply forallb_forall. intros x Hx. destruct (Hc x Hx) as [[W _] L]. rewrite W, L. reflexivity.
      + cbn [no_typeset]. apply forallb_forall. intros x Hx. apply Hc; auto.
  Qed.
  Lemma mk_record_rel fs : Forall (fun f : str * parg => gparg (snd f)) fs ->
    RV good (mk_record dsh1 fs) (mk_record dsh2 fs).
  Proof.
    intro H. unfold mk_record. eapply RVbind with (Q := fun ts => Forall goodl ts).
    - apply mapM_RV. eapply Forall_impl; [|exact H]. intros f Hf. apply launder_rel; auto.
    - intros ts Hts. destruct (nodup_str (map fst fs)) eqn:End; [|raise]. apply record_rel; auto.
  Qed.
  Lemma mk_datashape_rel name l : l <> [] -> Forall gparg l -> RV gds (mk_datashape dsh1 name l) (mk_datashape dsh2 name l).
  Proof.
    intros Hne H. unfold mk_datashape.
    assert (G : RV gds (let! ps := mapM (launder dsh1) l in check_datashape name ps)
                       (let! ps := mapM (launder dsh2) l in check_datashape name ps)).
    { assert (M : RV (Forall goodl) (mapM (launder dsh1) l) (mapM (launder dsh2) l)).
      { apply mapM_RV. eapply Forall_impl; [|exact H]. apply launder_rel. }
      destruct (mapM (launder dsh1) l) as [ps|] eqn:E1, (mapM (launder dsh2) l) as [ps'|] eqn:E2; simpl in M; try contradiction; [|exact M].
      destruct M as [<- M]. cbn [bind]. apply check_good; [|exact M].
      apply mapM_length in E1. destruct ps; [|discriminate]. destruct l; [congruence|discriminate]. }
    destruct l as [|[z|s|t|] [|y l]]; try exact G; [congruence|raise].
  Qed.
  Lemma mk_tuple_rel l : Forall gparg l -> RV good (mk_tuple dsh1 l) (mk_tuple dsh2 l).
  Proof.
    intro H. unfold mk_tuple. eapply RVbind with (Q := Forall gds).
    - apply mapM_RV. eapply Forall_impl; [|exact H]. intros x Hx.
      assert (D : RV gds (mk_datashape dsh1 None [x]) (mk_datashape dsh2 None [x])).
      { apply mk_datashape_rel; [discriminate|constructor; auto]. }
      destruct x as [z|s|t|]; try exact D. cbn [tuple_item]. destruct (is_DataShape t) eqn:Et; [|exact D].
      apply RV_Ok. split; auto.
    - intros ds Hds. apply RV_Ok. split; cbn [wf no_typeset]; apply forallb_forall; intros x Hx;
        rewrite Forall_forall in Hds; destruct (Hds x Hx) as [D [W T]]; rewrite ?D, ?W, ?T; reflexivity.
  Qed.

  Lemma c_complex_rel a : RV good (c_complex a) (c_complex a).
  Proof.
    destruct a; cbn [c_complex]; try raise. destruct (py_eq t (DataShapeT None [float32_t])); [apply RV_Ok; split; reflexivity|].
    destruct (py_eq t (DataShapeT None [float64_t])); [apply RV_Ok; split; reflexivity|raise].
  Qed.
  Lemma mk_string_rel f e : RV (fun t => good t /\ exists c, t = StringT f c) (mk_string f e) (mk_string f e).
  Proof.
    unfold mk_string. set (e' := match e with None | Some [] => $"U8" | Some e => e end).
    destruct (assoc e' string_encodings) as [c|] eqn:Ea; [|raise].
    apply RV_Ok. split; [|eauto]. split; [|reflexivity]. cbn [wf]. apply mem_str_In.
    assert (In c (map snd string_encodings)).
    { apply assoc_In in Ea. apply in_map_iff. exists (e', c). auto. }
    unfold string_encodings in H. cbn [map snd] in H. unfold canonical_encodings. simpl in *. intuition.
  Qed.
  Lemma c_string_rel args : RV good (c_string args) (c_string args).
  Proof.
    assert (M : forall f e, RV good (mk_string f e) (mk_string f e)).
    { intros f e. eapply RVmono; [|apply mk_string_rel]. intros a [H _]; auto. }
    destruct args as [|a [|b [|c l]]]; cbn [c_string]; [apply M| | |destruct a; raise].
    - destruct a; try raise; apply M.
    - assert (G : RV (fun t => good t /\ exists c, t = StringT None c)
        (match b with
         | AInt z => if (z =? 0)%Z then mk_string None None else Raise ValueErr
         | ABool b => if b then Raise ValueErr else mk_string None None
         | AStr s => mk_string None (Some s)
         | ADs _ => Raise ValueErr
         | AList [] => mk_string None None
         | AList (_ :: _) => Raise TypeErr
         end)
        (match b with
         | AInt z => if (z =? 0)%Z then mk_string None None else Raise ValueErr
         | ABool b => if b then Raise ValueErr else mk_string None None
         | AStr s => mk_string None (Some s)
         | ADs _ => Raise ValueErr
         | AList [] => mk_string None None
         | AList (_ :: _) => Raise TypeErr
         end)).
      { destruct b as [z|b|s|t|[|]]; try raise; try apply mk_string_rel;
          match goal with |- context [if ?x then _ else _] => destruct x end; try raise; apply mk_string_rel. }
      assert (G2 : RV good (let! t := match b with
         | AInt z => if (z =? 0)%Z then mk_string None None else Raise ValueErr
         | ABool b => if b then Raise ValueErr else mk_string None None
         | AStr s => mk_string None (Some s)
         | ADs _ => Raise ValueErr
         | AList [] => mk_string None None
         | AList (_ :: _) => Raise TypeErr
         end in match a, t with AInt z, StringT _ c => Ok (StringT (Some z) c) | _, _ => Raise NotModelled end)
         (let! t := match b with
         | AInt z => if (z =? 0)%Z then mk_string None None else Raise ValueErr
         | ABool b => if b then Raise ValueErr else mk_string None None
         | AStr s => mk_string None (Some s)
         | ADs _ => Raise ValueErr
         | AList [] => mk_string None None
         | AList (_ :: _) => Raise TypeErr
         end in match a, t with AInt z, StringT _ c => Ok (StringT (Some z) c) | _, _ => Raise NotModelled end)).
      { eapply RVbind; [exact G|]. intros t [[W T] [c ->]]. destruct a; try raise. apply RV_Ok. split; auto. }
      destruct a, b as [| | | |[|]]; exact G2.
  Qed.
  Lemma c_struct_gen a b : RV (fun _ => True) (targ_iter a) (targ_iter a) -> garg K b ->
    RV good (c_struct E dsh1 a b) (c_struct E dsh2 a b).
  Proof.
    intros Ha Hb. unfold c_struct. eapply RVbind; [exact Ha|]. intros ns _.
    eapply RVbind; [apply targ_iter_rel; exact Hb|]. intros ds Hds.
    eapply RVbind with (Q := fun _ => True).
    { eapply RVmono; [|apply mapM_RV with (Q := fun _ => True)]; [auto|]. apply Forall_forall. intros x _. apply targ_str_rel. }
    intros strs _. eapply RVbind with (Q := Forall goodl).
    { apply mapM_RV. apply Forall_forall. intros [n d] Hx. apply targ_launder_rel. apply in_combine_r in Hx.
      rewrite Forall_forall in Hds. apply Hds; auto. }
    intros tys Htys. destruct (nodup_str strs) eqn:End; [|raise]. apply record_rel; auto.
  Qed.
  Lemma c_struct_rel a b : garg K a -> garg K b -> RV good (c_struct E dsh1 a b) (c_struct E dsh2 a b).
  Proof. intros Ha Hb. apply c_struct_gen; auto. eapply RVmono; [|apply targ_iter_rel; exact Ha]. auto. Qed.
  Lemma c_tuple_rel a : garg K a -> RV good (c_tuple dsh1 a) (c_tuple dsh2 a).
  Proof.
    intro H. unfold c_tuple. eapply RVbind; [apply targ_iter_rel; exact H|]. intros l Hl. apply mk_tuple_rel.
    apply Forall_map. eapply Forall_impl; [|exact Hl]. apply targ_parg_good.
  Qed.
  Lemma targ_ds_rel a : garg K a -> RV good (targ_ds a) (targ_ds a).
  Proof. intro H. destruct H; cbn [targ_ds]; try raise. apply RV_Ok; auto. Qed.
  Lemma c_funcproto_rel a b : garg K a -> garg K b -> RV good (c_funcproto a b) (c_funcproto a b).
  Proof.
    intros Ha Hb. unfold c_funcproto. eapply RVbind; [apply targ_iter_rel; exact Ha|]. intros l Hl.
    eapply RVbind with (Q := Forall good).
    { apply mapM_RV. eapply Forall_impl; [|exact Hl]. apply targ_ds_rel. }
    intros ps Hps. eapply RVbind; [apply targ_ds_rel; exact Hb|]. intros r [W T]. apply RV_Ok. 
    assert (F : forall x, In x (ps ++ [r]) -> good x).
    { intros x Hx. apply in_app_iff in Hx as [Hx|[<-|[]]]; [rewrite Forall_forall in Hps; auto|split; auto]. }
    split; cbn [wf no_typeset].
    - replace (match ps ++ [r] with [] => false | _ :: _ => true end) with true by (destruct ps; reflexivity).
      cbn [andb]. apply forallb_forall. intros x Hx. apply F; auto.
    - apply forallb_forall. intros x Hx. apply F; auto.
  Qed.
  Lemma mk_typevar_rel s : RV (fun t => goodl t /\ upper_start s = true) (mk_typevar (e_uni E) s) (mk_typevar (e_uni E) s).
  Proof.
    unfold mk_typevar. destruct s as [|c r]; [raise|]. destruct (isupper (e_uni E) c) eqn:Eu; [|raise].
    assert (upper_start (c :: r) = true).
    { unfold isupper in Eu. cbn [upper_start]. destruct (c <? 128)%N eqn:Ec.
      - unfold is_upper, in_range in Eu. rewrite Eu. reflexivity.
      - apply N.ltb_ge in Ec. apply orb_true_iff. right. apply N.leb_le. exact Ec. }
    apply RV_Ok. split; auto. split; [split; [exact H|reflexivity]|reflexivity].
  Qed.
  Lemma c_typevar_rel a : RV goodl (c_typevar E a) (c_typevar E a).
  Proof.
    destruct a as [| |s|t|l]; cbn [c_typevar]; try raise.
    - eapply RVmono; [|apply mk_typevar_rel]. intros t [H _]; auto.
    - destruct t; try raise. destruct parameters; raise.
    - destruct l as [|[] l]; raise.
  Qed.
  Lemma c_option_rel a : garg K a -> RV good (c_option dsh1 a) (c_option dsh2 a).
  Proof.
    intro H. unfold c_option. eapply RVbind; [apply targ_launder_rel; exact H|]. intros t [[W T] L]. apply RV_Ok.
    split; cbn [wf no_typeset]; rewrite ?L, ?W, ?T; reflexivity.
  Qed.
  Lemma c_map_rel a b : garg K a -> garg K b -> RV good (c_map dsh1 a b) (c_map dsh2 a b).
  Proof.
    intros Ha Hb. unfold c_map. eapply RVbind; [apply targ_launder_rel; exact Ha|]. intros t [[W T] L].
    eapply RVbind; [apply targ_launder_rel; exact Hb|]. intros u [[W' T'] L']. apply RV_Ok.
    split; cbn [wf no_typeset]; rewrite ?L, ?W, ?T, ?L', ?W', ?T'; reflexivity.
  Qed.
  Lemma c_time_rel mk o : (forall z, good (mk z)) -> RV good (c_time mk o) (c_time mk o).
  Proof. intro H. destruct o as [[]|]; cbn [c_time]; try raise; apply RV_Ok; auto. Qed.
  Lemma mk_timedelta_rel s : RV good (mk_timedelta s) (mk_timedelta s).
  Proof.
    unfold mk_timedelta. pose proof (normalize_errors s) as H. destruct (normalize_time_unit s) as [u|e]; cbn [bind].
    - apply RV_Ok. split; [|reflexivity]. cbn [wf]. apply mem_str_In. exact H.
    - destruct H; subst; raise.
  Qed.
  Lemma c_timedelta_rel o : RV good (c_timedelta E o) (c_timedelta E o).
  Proof.
    destruct o as [[]|]; cbn [c_timedelta]; try raise; try apply mk_timedelta_rel;
      (eapply RVbind; [apply targ_str_rel|]; intros s _; apply mk_timedelta_rel).
  Qed.
  Lemma c_units_rel a o : (forall b, o = Some b -> garg K b) -> RV good (c_units a o) (c_units a o).
  Proof.
    intro Ho. destruct a; cbn [c_units]; try raise. destruct o as [b|].
    - destruct b; try raise. cbn [mk_units]. destruct (is_DataShape t) eqn:Ed; [|raise]. apply RV_Ok.
      specialize (Ho _ eq_refl). inversion Ho as [| | |? [W T]|]; subst. split; cbn [wf no_typeset]; rewrite ?Ed, ?W, ?T; reflexivity.
    - apply RV_Ok. split; reflexivity.
  Qed.
  Lemma c_decimal_rel a o : RV good (c_decimal a o) (c_decimal a o).
  Proof. destruct a, o as [[]|]; cbn [c_decimal]; try raise; apply RV_Ok; split; reflexivity. Qed.
  Lemma targ_lit_rel a : RV (fun _ => True) (targ_lit a) (targ_lit a).
  Proof. destruct a; cbn [targ_lit]; try raise; apply RV_Ok; auto. Qed.
  Lemma c_categorical_rel a o o' : garg K a -> (forall b, o = Some b -> garg K b) ->
    RV good (c_categorical E a o o') (c_categorical E a o o').
  Proof.
    intros Ha Ho. unfold c_categorical. eapply RVbind; [apply targ_iter_rel; exact Ha|]. intros l _.
    eapply RVbind with (Q := fun _ => True).
    { eapply RVmono; [|apply mapM_RV with (Q := fun _ => True)]; [auto|]. apply Forall_forall. intros x _. apply targ_lit_rel. }
    intros lits _.
    assert (Hd : RV good (let! t := e_disc E lits in Ok (measure t)) (let! t := e_disc E lits in Ok (measure t))).
    { pose proof (HE lits) as H. destruct (e_disc E lits) as [t|e]; cbn [bind].
      - apply RV_Ok. apply good_measure; auto.
      - apply RV_Raise. exact H. }
    eapply RVbind with (Q := good).
    { destruct o as [b|]; [|exact Hd]. specialize (Ho b eq_refl).
      destruct b; try (destruct (falsy _); [exact Hd|raise]).
      apply RV_Ok. apply good_measure. inversion Ho; auto. }
    intros t [W T]. destruct o' as [[]|]; try raise; apply RV_Ok; split; cbn [wf no_typeset]; auto.
  Qed.

  Definition gopt (o : option targ) : Prop := match o with Some a => garg K a | None => True end.
  Lemma bind_kw_rel params kw : Forall (fun p => garg K (snd p)) kw ->
    RV (Forall gopt) (bind_kw params kw) (bind_kw params kw).
  Proof.
    intro H. induction params as [|[n req] params IH]; cbn [bind_kw]; [apply RV_Ok; constructor|].
    destruct (assoc n kw) as [v|] eqn:Ea.
    - eapply RVbind; [exact IH|]. intros t Ht. apply RV_Ok. constructor; auto. cbn [gopt].
      apply assoc_In in Ea. rewrite Forall_forall in H. exact (H _ Ea).
    - destruct req; [raise|]. eapply RVbind; [exact IH|]. intros t Ht. apply RV_Ok. constructor; simpl; auto.
  Qed.
  Lemma bind_pos_rel params args kw : Forall (garg K) args -> Forall (fun p => garg K (snd p)) kw ->
    RV (Forall gopt) (bind_pos params args kw) (bind_pos params args kw).
  Proof.
    intros Ha Hk. revert params. induction Ha as [|a args Ha Hl IH]; intro params.
    { replace (bind_pos params [] kw) with (bind_kw params kw) by (destruct params as [|[]]; reflexivity).
      apply bind_kw_rel; auto. }
    destruct params as [|[n r] params]; cbn [bind_pos]; [raise|]. destruct (assoc n kw); [raise|].
    eapply RVbind; [apply IH|]. intros t Ht. apply RV_Ok. constructor; auto.
  Qed.
  Lemma call_bind_rel params args kw : Forall (garg K) args -> Forall (fun p => garg K (snd p)) kw ->
    RV (Forall gopt) (call_bind params args kw) (call_bind params args kw).
  Proof. intros Ha Hk. unfold call_bind. destruct (forallb _ kw); [apply bind_pos_rel; auto|raise]. Qed.

  Lemma gopt_nth l i : Forall gopt l -> gopt (nth i l None).
  Proof.
    intro H. revert i. induction H as [|o l Ho H IH]; intros [|i]; simpl; auto.
  Qed.
  Lemma constr_rel n :
    match constr_fun E dsh1 n, constr_fun E dsh2 n with
    | Some c1, Some c2 => forall args kw, Forall (garg K) args -> Forall (fun p => garg K (snd p)) kw ->
        RV good (c1 args kw) (c2 args kw)
    | None, None => True
    | _, _ => False
    end.
  Proof.
    unfold constr_fun.
    repeat match goal with
    | |- context [if str_eqb n ?x then _ else _] => destruct (str_eqb n x)
    end; try exact I;
    try (intros args kw Ha Hk; eapply RVbind; [apply call_bind_rel; assumption|]; intros l Hl;
         pose proof (gopt_nth l 0 Hl) as Ga; pose proof (gopt_nth l 1 Hl) as Gb;
         generalize dependent (nth 0 l None); generalize dependent (nth 1 l None); generalize (nth 2 l None);
         intros c b Gb a Ga;
         first [ apply c_time_rel; intro; split; reflexivity
               | apply c_timedelta_rel
               | destruct a as [a|]; [|raise]; cbn [gopt] in Ga;
                 first [ apply c_complex_rel | apply c_tuple_rel; assumption
                       | eapply RVmono; [|apply c_typevar_rel]; intros t [H _]; exact H
                       | apply c_option_rel; assumption
                       | apply c_units_rel; intros x ->; exact Gb
                       | apply c_decimal_rel
                       | apply c_categorical_rel; [assumption|intros x ->; exact Gb]
                       | destruct b as [b|]; [|raise]; cbn [gopt] in Gb;
                         first [apply c_struct_rel; assumption | apply c_funcproto_rel; assumption | apply c_map_rel; assumption ] ] ]).
    intros args kw Ha Hk. destruct kw; [apply c_string_rel|raise].
  Qed.
  Lemma typevar_rel :
    match constr_fun E dsh1 $"typevar", constr_fun E dsh2 $"typevar" with
    | Some c1, Some c2 => forall v, RV good (c1 [val_targ v] []) (c2 [val_targ v] [])
    | None, None => True
    | _, _ => False
    end.
  Proof.
    cbv [constr_fun]. cbn -[call_bind c_typevar val_targ]. intro v.
    change (call_bind [($"name", true)] [val_targ v] []) with (@Ok (list (option targ)) [Some (val_targ v)]).
    cbn [bind nth]. eapply RVmono; [|apply c_typevar_rel]. intros t [H _]; exact H.
  Qed.
  Lemma struct_rel :
    match constr_fun E dsh1 $"struct", constr_fun E dsh2 $"struct" with
    | Some c1, Some c2 => forall names tys, Forall gds tys ->
        RV good (c1 [AList (map AStr names); AList (map ADs tys)] [])
                (c2 [AList (map AStr names); AList (map ADs tys)] [])
    | None, None => True
    | _, _ => False
    end.
  Proof.
    cbv [constr_fun]. cbn -[call_bind c_struct]. intros names tys H.
    change (call_bind [($"names", true); ($"dshapes", true)] [AList (map AStr names); AList (map ADs tys)] [])
      with (@Ok (list (option targ)) [Some (AList (map AStr names)); Some (AList (map ADs tys))]).
    cbn [bind nth]. apply c_struct_gen.
    - apply RV_Ok. exact I.
    - constructor. apply Forall_map. eapply Forall_impl; [|exact H]. intros t [_ Ht]. constructor. exact Ht.
  Qed.

  Lemma dim_constr_rel n :
    match dim_constr_fun E n, dim_constr_fun E n with
    | Some c1, Some c2 => forall v, RV good (c1 (val_targ v)) (c2 (val_targ v))
    | None, None => True
    | _, _ => False
    end.
  Proof.
    unfold dim_constr_fun.
    destruct (str_eqb n $"fixed"); [|destruct (str_eqb n $"typevar"); [|destruct (str_eqb n $"ellipsis"); [|exact I]]]; intro v.
    - destruct v; cbn [val_targ]; try raise; (eapply RVmono; [|apply mk_fixed_rel]; intros t [H _]; exact H).
    - eapply RVmono; [|apply c_typevar_rel]. intros t [H _]; exact H.
    - destruct v; cbn [val_targ]; cbn [c_typevar bind]; try raise. unfold mk_ellipsis. eapply RVbind; [apply mk_typevar_rel|].
      intros t [_ Hu]. apply RV_Ok. split; [exact Hu|reflexivity].
  Qed.

  Lemma parse_toks_default ts1 ts2 : strel pr (gval K) ts1 ts2 ->
    RV gds (parse_toks (default_sym E dsh1) ts1) (parse_toks (default_sym E dsh2) ts2).
  Proof.
    apply parse_toks_rel with (Qdt := good) (Qdim := good) (garg := garg K).
    - intro n. apply constr_rel.
    - intro n. split; [reflexivity|]. cbn [st_dtype default_sym]. intros t Ht. apply assoc_In in Ht.
      unfold dtype_table in Ht. cbn [In] in Ht.
      repeat (destruct Ht as [Ht|Ht]; [inversion Ht; subst; split; reflexivity|]). contradiction.
    - intro n. split; [reflexivity|]. cbn [st_dim default_sym]. intros t Ht. apply assoc_In in Ht.
      unfold dim_table in Ht. cbn [In] in Ht.
      repeat (destruct Ht as [Ht|Ht]; [inversion Ht; subst; split; reflexivity|]). contradiction.
    - intro n. apply dim_constr_rel.
    - intros t Ht. apply mk_ds_good; [discriminate|constructor; auto].
    - intros d t Hd [_ Ht]. apply mk_ds_good; [discriminate|]. constructor; auto. apply good_params; auto.
    - intros t [_ Ht]. constructor; auto.
    - intros v Hv. destruct v; cbn [val_targ]; constructor; auto.
    - apply typevar_rel.
    - apply struct_rel.
    - intros l Hl. constructor; auto.
  Qed.
  Lemma datashape_default d1 d2 ts1 ts2 : SR pr (gval K) ts1 ts2 -> (length ts1 < d1)%nat -> (length ts1 < d2)%nat ->
    Rres pr (gval K) gds (length ts1) (parse_datashape (default_sym E dsh1) d1 ts1)
                                    (parse_datashape (default_sym E dsh2) d2 ts2).
  Proof.
    apply datashape_rel with (Qdt := good) (Qdim := good) (garg := garg K).
    - intro n. apply constr_rel.
    - intro n. split; [reflexivity|]. cbn [st_dtype default_sym]. intros t Ht. apply assoc_In in Ht.
      unfold dtype_table in Ht. cbn [In] in Ht.
      repeat (destruct Ht as [Ht|Ht]; [inversion Ht; subst; split; reflexivity|]). contradiction.
    - intro n. split; [reflexivity|]. cbn [st_dim default_sym]. intros t Ht. apply assoc_In in Ht.
      unfold dim_table in Ht. cbn [In] in Ht.
      repeat (destruct Ht as [Ht|Ht]; [inversion Ht; subst; split; reflexivity|]). contradiction.
    - intro n. apply dim_constr_rel.
    - intros t Ht. apply mk_ds_good; [discriminate|constructor; auto].
    - intros d t Hd [_ Ht]. apply mk_ds_good; [discriminate|]. constructor; auto. apply good_params; auto.
    - intros t [_ Ht]. constructor; auto.
    - intros v Hv. destruct v; cbn [val_targ]; constructor; auto.
    - apply typevar_rel.
    - apply struct_rel.
    - intros l Hl. constructor; auto.
  Qed.
End Constr.

(** ** validation *)
Lemma validate_rel pr t : RV pr (fun _ => True) (validate t) (validate t).
Proof.
  assert (V : forall t, RV pr (fun _ => True) (validate_ds t) (validate_ds t)).
  { intro u. destruct u; cbn [validate_ds]; try (apply RV_Ok; exact I).
    destruct (Nat.ltb _ _); [apply RV_Raise; exact I|]. destruct (is_Ellipsis _); [apply RV_Raise; exact I|apply RV_Ok; exact I]. }
  induction t using ty_ind'; cbn [validate]; try (apply RV_Ok; exact I); try assumption.
  - eapply RVbind; [|intros _ _; apply V]. apply mapM_RV with (Q := fun _ => True). exact H.
  - eapply RVbind; [|intros _ _; apply V]. apply mapM_RV with (Q := fun _ => True). exact H.
  - eapply RVbind; [exact IHt1|]. intros _ _. exact IHt2.
Qed.

(** ** streams of lexed texts *)
Lemma StrBody_length q b v : StrBody q b v -> (length v <= length b)%nat.
Proof. induction 1; simpl; lia. Qed.
Definition str_bound (K : str -> Prop) (ts : list token) : Prop :=
  Forall (fun t => tk_kind t = KInt \/ tk_kind t = KStr \/ tk_kind t = KBool -> gval K (tk_val t)) ts.

Lemma sub_length s a b : (length (sub s a b) <= length s)%nat.
Proof. unfold sub. rewrite firstn_length, skipn_length. lia. Qed.
Lemma Spans_bound s ts err : forall a, Spans s a ts err -> str_bound (upto (length s - 2)) ts.
Proof.
  induction ts as [|t ts IH]; intros a H; [constructor|]. cbn [Spans] in H.
  destruct H as [H1 [H2 [H3 [H4 [H5 [H6 H7]]]]]]. constructor; [|eapply IH; eauto].
  pose proof (sub_length s (tk_start t) (tk_end t)) as HL.
  intro Hk. destruct t as [k v st en]. cbn [tk_kind tk_val tk_start tk_end] in *.
  remember (sub s st en) as w eqn:Ew. destruct H5; simpl; auto; try (exfalso; intuition discriminate).
  unfold upto. apply StrBody_length in H0. simpl in HL. rewrite app_length in HL. simpl in HL. lia.
Qed.
Lemma Spans_ends s ts err : forall a, Spans s a ts err ->
  Forall (fun t => (tk_start t <= length s)%nat /\ (tk_end t <= length s)%nat) ts /\
  match err with Some (SyntaxErr p m) => m = MToken /\ (p <= length s)%nat | Some e => e = ValueErr | None => True end.
Proof.
  induction ts as [|t ts IH]; intros a H; cbn [Spans] in H.
  - split; [constructor|]. destruct err as [e|]; auto. destruct e; try tauto. split; [tauto|lia].
  - destruct H as [H1 [H2 [H3 [H4 [H5 [H6 H7]]]]]]. destruct (IH _ H7) as [I1 I2]. split; auto.
    constructor; auto. split; lia.
Qed.

Lemma stream_strel (pr : nat -> nat -> Prop) K ts1 ts2 err1 err2 e1 e2 :
  Forall2 (fun a b => kind_val a = kind_val b /\ pr (tk_start a) (tk_start b) /\ pr (tk_end a) (tk_end b)) ts1 ts2 ->
  match err1, err2 with
  | Some x, Some y => er pr x y
  | None, None => True
  | _, _ => False
  end ->
  pr e1 e2 -> str_bound K ts1 ->
  strel pr (gval K) (stream ts1 err1 e1) (stream ts2 err2 e2).
Proof.
  intros H He. revert e1 e2. induction H as [|a b ts1 ts2 [H1 [H2 H3]] H IH]; intros p1 p2 Hp HK; cbn [stream].
  - destruct err1, err2; try contradiction; constructor; auto.
  - inversion HK as [|? ? K1 K2]; subst. unfold kind_val in H1. inversion H1. constructor; auto.
Qed.

Section Final.
  Variable E : env.
  Hypothesis HE : disc_ok E.
  Definition inside (n : nat) (p q : nat) : Prop := p = q /\ (p <= n)%nat.

  Lemma parse_self s dsh1 dsh2 :
    (forall s', (length s' < length s)%nat -> RV (inside (length s')) gds (dsh1 s') (dsh2 s')) ->
    RV (inside (length s)) gds (parse s (default_sym E dsh1)) (parse s (default_sym E dsh2)).
  Proof.
    intro Hd. destruct s as [|c s].
    { cbn. exists 0%nat. repeat split; lia. }
    set (w := c :: s) in *.
    unfold parse. destruct (lex w) as [ts err] eqn:El. apply lex_Spans in El.
    pose proof (Spans_bound _ _ _ _ El) as Hb. pose proof (Spans_ends _ _ _ _ El) as [He Herr].
    apply parse_toks_default with (K := upto (length w - 2)); auto using upto_by_char.
    - intros s' Hs'. unfold upto in Hs'. eapply RV_pr; [|apply Hd; subst w; simpl in *; lia].
      intros p q [-> H]. split; auto. subst w; simpl in *; lia.
    - apply stream_strel; auto.
      + clear -He. induction He as [|t ts [H1 H2] He IH]; constructor; auto. repeat split; auto.
      + destruct err as [e|]; auto. destruct e; simpl; try congruence. destruct Herr as [-> Herr]. exists pos. repeat split; auto.
      + split; [reflexivity|lia].
  Qed.

  Lemma dshape_str_rel : forall s m1 m2, (length s < m1)%nat -> (length s < m2)%nat ->
    RV (inside (length s)) gds (dshape_str E m1 s) (dshape_str E m2 s).
  Proof.
    intro s. remember (length s) as n eqn:En. revert s En.
    induction n as [n IH] using (well_founded_induction lt_wf). intros s -> m1 m2 H1 H2.
    destruct m1 as [|m1]; [lia|]. destruct m2 as [|m2]; [lia|]. cbn [dshape_str].
    eapply RVbind; [apply parse_self; intros s' Hs'; apply (IH (length s')); auto; lia|].
    intros t Ht. eapply RVbind; [apply validate_rel|]. intros _ _. apply RV_Ok. exact Ht.
  Qed.

  Definition anyp (p q : nat) : Prop := True.
  Lemma dshape_fuel s m : (length s < m)%nat -> dshape_str E m s = dshape E s.
  Proof.
    intro H. unfold dshape. pose proof (dshape_str_rel s m (S (length s)) H ltac:(lia)) as R.
    destruct (dshape_str E m s) as [a|e], (dshape_str E (S (length s)) s) as [b|e']; simpl in R; try contradiction.
    - destruct R; congruence.
    - destruct e; simpl in R; try congruence; try contradiction. destruct R as [p2 [-> [-> _]]]. reflexivity.
  Qed.

  (** two texts with the same tokens *)
  Lemma dshape_layout_rel l s1 s2 : Layout l s1 -> Layout l s2 ->
    RV anyp gds (dshape E s1) (dshape E s2).
  Proof.
    intros L1 L2. apply lex_Layout in L1 as [ts1 [X1 M1]]. apply lex_Layout in L2 as [ts2 [X2 M2]].
    unfold dshape. cbn [dshape_str].
    eapply RVbind; [|intros t Ht; eapply RVbind; [apply validate_rel|]; intros _ _; apply RV_Ok; exact Ht].
    unfold parse. rewrite X1, X2.
    pose proof (lex_Spans _ _ _ X1) as S1. pose proof (lex_Spans _ _ _ X2) as S2.
    pose proof (Spans_bound _ _ _ _ S1) as B1. pose proof (Spans_bound _ _ _ _ S2) as B2.
    assert (Hne : ts1 = [] \/ ((0 < length s1)%nat /\ (0 < length s2)%nat)).
    { destruct ts1 as [|t1 ts1]; [left; reflexivity|right]. destruct ts2 as [|t2 ts2]; [subst l; discriminate|].
      cbn [Spans] in S1, S2. lia. }
    destruct Hne as [->|[P1 P2]].
    { subst l. destruct ts2; [|discriminate]. cbn. exists 0%nat. split; [reflexivity|exact I]. }
    apply parse_toks_default with (K := upto (Nat.min (length s1 - 2) (length s2 - 2))); auto using upto_by_char.
    - intros s' Hs'. unfold upto in Hs'. eapply RV_pr; [|apply dshape_str_rel; lia]. intros; exact I.
    - apply stream_strel; try exact I.
      + clear -M1 M2. subst l. revert ts2 M2. induction ts1 as [|t ts1 IH]; intros [|t2 ts2] M; try discriminate; constructor.
        * inversion M. split; [unfold kind_val; congruence|split; exact I].
        * apply IH. inversion M. auto.
      + clear -B1 B2 M1 M2. subst l. revert ts2 M2 B2. induction ts1 as [|t ts1 IH]; intros [|t2 ts2] M B2; try discriminate; constructor.
        * inversion B1 as [|? ? Q1 Q2]; inversion B2 as [|? ? Q3 Q4]; subst. inversion M as [[Mk Mv]].
          intro Hk. rewrite Mk, Mv in *. specialize (Q1 Hk). specialize (Q3 Hk).
          unfold gval, upto in *. destruct (tk_val t); auto. lia.
        * inversion B1; inversion B2; subst. inversion M. eapply IH; eauto.
  Qed.
End Final.

(** ** the statements used by the property files *)
From Verif Require Import Spec_WF Proof_WF.

Lemma RV_inv {A} pr (Q : A -> Prop) x y : RV pr Q x y ->
  (exists a, x = Ok a /\ y = Ok a /\ Q a) \/
  (exists p q m, x = Raise (SyntaxErr p m) /\ y = Raise (SyntaxErr q m) /\ pr p q) \/
  (exists e, x = Raise e /\ y = Raise e /\ plain_exn e).
Proof.
  intro H. destruct x as [a|e], y as [b|e']; simpl in H; try contradiction.
  - destruct H as [<- H]. left. eauto.
  - right. destruct e; simpl in H; try contradiction; subst;
      try (right; eexists; split; [reflexivity|split; [reflexivity|exact I]]; fail).
    destruct H as [q [-> H]]. left. eauto 7.
Qed.

Lemma dshape_outcome E s : disc_ok E ->
  (exists t, dshape E s = Ok t /\ IsDataShape t /\ WF t /\ NoTypeSet t) \/
  (exists p m, dshape E s = Raise (SyntaxErr p m) /\ (p <= length s)%nat) \/
  (exists e, dshape E s = Raise e /\ plain_exn e).
Proof.
  intro HE. pose proof (dshape_str_rel E HE s (S (length s)) (S (length s)) ltac:(lia) ltac:(lia)) as H.
  apply RV_inv in H as [[t [H [_ [D [W T]]]]]|[[p [q [m [H [_ [_ Hp]]]]]]|[e [H [_ He]]]]].
  - left. exists t. split; auto. split; [apply IsDataShape_b; auto|]. split; [apply wf_WF|apply no_typeset_spec]; auto.
  - right; left. eauto 6.
  - right; right. eauto.
Qed.

Lemma dshape_layout E l s1 s2 : disc_ok E -> Layout l s1 -> Layout l s2 ->
  (exists t, dshape E s1 = Ok t /\ dshape E s2 = Ok t) \/
  (exists p q m, dshape E s1 = Raise (SyntaxErr p m) /\ dshape E s2 = Raise (SyntaxErr q m)) \/
  (exists e, dshape E s1 = Raise e /\ dshape E s2 = Raise e).
Proof.
  intros HE L1 L2. pose proof (dshape_layout_rel E HE l s1 s2 L1 L2) as H.
  apply RV_inv in H as [[t [H1 [H2 _]]]|[[p [q [m [H1 [H2 _]]]]]|[e [H1 [H2 _]]]]]; eauto 8.
Qed.

(** recursion depth of the parser: any bound above the number of tokens gives the same result *)
Definition outcome {A B} (x : res (A * B)) : res A := let! (a, b) := x in Ok a.
Lemma parse_depth E s : disc_ok E -> forall n ts,
  let (toks, err) := lex s in
  ts = stream toks err 0 -> live ts -> (length ts < n)%nat ->
  outcome (parse_datashape (default_sym E (dshape E)) n ts) =
  outcome (parse_datashape (default_sym E (dshape E)) (S (length ts)) ts) /\
  outcome (parse_datashape (default_sym E (dshape E)) n ts) <> Raise OutOfFuel.
Proof.
  intros HE n ts. destruct (lex s) as [toks err] eqn:El. intros -> Hlive Hn.
  pose proof (lex_Spans _ _ _ El) as S1.
  pose proof (Spans_bound _ _ _ _ S1) as Hb. pose proof (Spans_ends _ _ _ _ S1) as [He Herr].
  assert (Hd : forall s0, upto (length s - 2) s0 -> RV eq gds (dshape E s0) (dshape E s0)).
  { intros s0 _. eapply RV_pr; [|apply dshape_str_rel; auto; lia]. intros p q [-> _]; auto. }
  pose proof (datashape_default E HE eq (dshape E) (dshape E) (upto (length s - 2)) (upto_by_char _) Hd
     n (S (length (stream toks err 0))) (stream toks err 0) (stream toks err 0)) as H.
  assert (HS : SR eq (gval (upto (length s - 2))) (stream toks err 0) (stream toks err 0)).
  { split; auto. apply stream_strel; auto.
    - clear. induction toks; constructor; auto.
    - destruct err as [e|]; auto. destruct e; simpl; try congruence. eauto. }
  specialize (H HS Hn ltac:(lia)).
  destruct (parse_datashape _ n _) as [[o1 r1]|e1]; destruct (parse_datashape _ (S _) _) as [[o2 r2]|e2]; cbn [Rres] in H; try contradiction.
  - destruct H as [-> _]. split; [reflexivity|discriminate].
  - destruct e1; simpl in H; try contradiction; subst; try (split; [reflexivity|discriminate]).
    destruct H as [p2 [-> <-]]. split; [reflexivity|discriminate].
Qed.
