(** C63: the types with and without arguments that a datashape string can name. *)
From Verif Require Import Base Types Lexer Printer Construct Parser Spec_Lexer Proof_Lexer Spec_WF Spec_Preds Proof_Parser
  Spec_Grammar Proof_Grammar Proof_Grammar3 Spec_Time Spec_Constr Proof_Ops Proof_Constr Proof_Constr2 Proof_Constr3 Tests_Parser.
Local Open Scope Z_scope.

(** C63. The names of types are exactly the documented ones... *)
Theorem C63_names : forall E n ds, disc_ok E -> NameText is_lower n ->
  dshape E n = Ok ds <-> exists t, In (n, t) plain_types /\ ds = DataShapeT None [t].
Proof.
  intros E n ds HE HN.
  assert (HL : Layout [(KLower, VStr n)] n).
  { pose proof (Layout_tok [] KLower n (VStr n) [] []) as HL. rewrite app_nil_r in HL. cbn in HL. apply HL.
    - constructor.
    - constructor; auto.
    - discriminate.
    - exact I.
    - constructor. constructor. }
  assert (MS : Forall (fun p => may_be_measure (snd p) = true /\ launder_ty (snd p) = snd p) plain_types) by (repeat (constructor; [split; reflexivity|]); constructor).
  assert (TB : forall t, assoc n dtype_table = Some t <-> In (n, t) plain_types).
  { intro t. split.
    - intro H. apply assoc_In in H. cbn [dtype_table In] in H.
      repeat (destruct H as [H|H]; [rewrite <- H; cbn; auto 40|]). destruct H.
    - intro H. cbn [plain_types In] in H. repeat (destruct H as [H|H]; [injection H; intros <- <-; reflexivity|]). destruct H. }
  rewrite dshape_exact by auto. split.
  - intros [l [HL' [HI HG]]]. rewrite (Layout_fun _ _ _ HL' HL) in HI. clear l HL'.
    assert (TU : forall u l, TupleType (default_sym E (dshape E)) true u l -> exists r, u = tok KLP :: r) by (intros u l []; eauto).
    assert (DU : forall u d, DimName (default_sym E (dshape E)) u d -> exists x r, u = x :: r) by (intros u d []; eauto).
    assert (DT : forall t, Dtype (default_sym E (dshape E)) true [] t -> False).
    { intros t H. inversion H as [| | | |w l c t0 HTT H1 H2|w l v r c t0 HTT HDS H1 H2 EQ]; subst.
      - destruct (TU _ _ HTT) as [r X]. discriminate X.
      - destruct w; discriminate. }
    inversion HI as [w t HNO|]; subst.
    inversion HNO as [u d w t t' HD HS HM EQ|w t t' HT HX HM|u d w t t' _ HD HT HM EQ]; subst.
    + exfalso. assert (exists x r, u = x :: r) as [x [r ->]] by (destruct HD; eauto). destruct r; discriminate.
    + inversion HT as [|m t0 H1|m c w args kw t0 H1 HA HNE H2 EQ| |w l c t0 HTT H1 H2|w l v r c t0 HTT HDS H1 H2 EQ]; subst.
      * exists t. cbn in H1. apply TB in H1. split; auto. rewrite Forall_forall in MS. specialize (MS _ H1). cbn in MS. apply mk_ds_measure in HM; auto.
      * destruct (TU _ _ HTT) as [r X]. discriminate X.
      * destruct (TU _ _ HTT) as [r' X]. subst. discriminate.
    + exfalso. destruct (DU _ _ HD) as [x [r ->]]. destruct r; [|discriminate]. injection EQ as _ ->. eapply DT; eauto.
  - intros [t [Hin ->]]. exists [(KLower, VStr n)]. split; auto. rewrite Forall_forall in MS. specialize (MS _ Hin). cbn [snd] in MS. split.
    + apply DS_plain. eapply NO_dtype; [| |apply mk_ds_measure; [exact MS|reflexivity]].
      * apply DT_type. cbn. apply TB. auto.
      * intros [m [c [v [r [H _]]]]]. discriminate.
    + clear TB MS. cbn [plain_types In] in Hin. intros k ps Hr.
      inversion Hr as [|k' ps' c' Hc Hr'| | | | |]; subst.
      * apply one_good. intros [o ->]. repeat (destruct Hin as [H|Hin]; [discriminate|]). destruct Hin.
      * destruct Hc as [<-|[]].
        repeat (destruct Hin as [H|Hin]; [injection H; intros <- _; inversion Hr'|]). destruct Hin.
Qed.
Print Assumptions C63_names.

(** ... a text [name[...]] is accepted exactly if [name] is a documented constructor and the
    arguments fit its parameters; then it means what the table of meanings says (a keyword given
    twice has its last value). *)
Theorem C63_constructors : forall E s n ps w ds, disc_ok E -> In (n, ps) signatures -> n <> $"typevar" ->
  Layout ((KLower, VStr n) :: tok KLBk :: w ++ [tok KRBk]) s ->
  dshape E s = Ok ds <->
  exists args kw kwd b t, Args (default_sym E (dshape E)) true w args kw /\ (args <> [] \/ kw <> []) /\ Latest kw kwd /\
    Bound ps args kwd b /\ Meaning E (dshape E) n b t /\ ds = DataShapeT None [t] /\ AllGood ds.
Proof. exact constr_text. Qed.
Print Assumptions C63_constructors.
Theorem C63_string : forall E s w ds, disc_ok E ->
  Layout ((KLower, VStr $"string") :: tok KLBk :: w ++ [tok KRBk]) s ->
  dshape E s = Ok ds <->
  exists args t, Args (default_sym E (dshape E)) true w args [] /\ args <> [] /\ StringMeaning args t /\ ds = DataShapeT None [t].
Proof. exact string_text. Qed.
Print Assumptions C63_string.
(** No other name takes arguments (also [var] and [ellipsis] do not), and [typevar[...]] is not implemented. *)
Theorem C63_no_others : forall E s n w ds, disc_ok E -> ~ In n (map fst signatures) -> n <> $"string" ->
  ~ In n [$"var"; $"ellipsis"; $"fixed"] ->
  Layout ((KLower, VStr n) :: tok KLBk :: w ++ [tok KRBk]) s -> dshape E s <> Ok ds.
Proof.
  intros E s n w ds HE H1 H2 H3 HL H. apply dshape_exact in H as [l [HL' [HI _]]]; auto. rewrite (Layout_fun _ _ _ HL' HL) in HI.
  assert (D1 : st_dim (default_sym E (dshape E)) n = None).
  { cbn [st_dim default_sym]. destruct (assoc n dim_table) as [d|] eqn:X; [|auto]. exfalso. apply assoc_In in X. apply H3.
    cbn [dim_table In] in X. destruct X as [X|[X|[]]]; apply (f_equal fst) in X; cbn [fst] in X; subst; cbn; auto. }
  assert (D2 : st_dim_constr (default_sym E (dshape E)) n = None).
  { cbn [st_dim_constr default_sym]. unfold dim_constr_fun. destruct (str_eqb n $"fixed") eqn:X; [apply str_eqb_eq in X; subst; elim H3; cbn; auto|].
    destruct (str_eqb n $"typevar") eqn:Z; [apply str_eqb_eq in Z; subst; elim H1; cbn; auto 20|].
    destruct (str_eqb n $"ellipsis") eqn:Y; auto. apply str_eqb_eq in Y; subst; elim H3; cbn; auto. }
  apply (constr_word E n w ds D1 D2) in HI. destruct HI as [c [args [kw [t [Hc _]]]]].
  assert (X : constr_fun E (dshape E) n <> None) by congruence. apply constr_names in X as [X|X]; contradiction.
Qed.
Print Assumptions C63_no_others.

(** The same for the constructors as objects of the symbol table, called with Python arguments:
    arguments that do not fit the signature give TypeError. *)
Theorem C63_call : forall E dsh n ps c args kw t, In (n, ps) signatures ->
  st_dtype_constr (default_sym E dsh) n = Some c -> NoDup (map fst kw) ->
  c args kw = Ok t <-> exists b, Bound ps args kw b /\ Meaning E dsh n b t.
Proof. intros E dsh n ps c args kw t. apply constr_spec. Qed.
Print Assumptions C63_call.
Theorem C63_call_mismatch : forall E dsh n ps c args kw, In (n, ps) signatures ->
  st_dtype_constr (default_sym E dsh) n = Some c -> NoDup (map fst kw) ->
  (forall b, ~ Bound ps args kw b) -> c args kw = Raise TypeErr.
Proof. intros E dsh n ps c args kw. apply constr_bad. Qed.
Print Assumptions C63_call_mismatch.
Theorem C63_call_string : forall E dsh c args kw t, st_dtype_constr (default_sym E dsh) $"string" = Some c ->
  c args kw = Ok t <-> kw = [] /\ StringMeaning args t.
Proof. intros E dsh c args kw t. apply string_spec. Qed.
Print Assumptions C63_call_string.
Theorem C63_table : forall E dsh n, st_dtype_constr (default_sym E dsh) n <> None <-> n = $"string" \/ In n (map fst signatures).
Proof. intros E dsh n. apply constr_names. Qed.
Print Assumptions C63_table.
(** A dimension is [var], [...], a size that is not negative, a type variable, or a type variable
    followed by [...]. *)
Theorem C63_dims : forall E dsh,
  (forall n d, st_dim (default_sym E dsh) n = Some d <-> In (n, d) plain_dims) /\
  (forall n c, st_dim_constr (default_sym E dsh) n = Some c -> In n [$"fixed"; $"typevar"; $"ellipsis"]) /\
  exists f v e, st_dim_constr (default_sym E dsh) $"fixed" = Some f /\ st_dim_constr (default_sym E dsh) $"typevar" = Some v /\
    st_dim_constr (default_sym E dsh) $"ellipsis" = Some e /\
    (forall z d, f (AInt z) = Ok d <-> 0 <= z /\ d = FixedT z) /\
    (forall s d, v (AStr s) = Ok d <-> exists c r, s = c :: r /\ UpperLetter E c /\ d = TypeVarT s) /\
    (forall s d, e (AStr s) = Ok d <-> exists c r, s = c :: r /\ UpperLetter E c /\ d = EllipsisT (Some s)).
Proof.
  intros E dsh. split; [|split].
  - intros n d. cbn [st_dim default_sym]. split.
    + intro H. apply assoc_In in H. cbn [dim_table In] in H. repeat (destruct H as [H|H]; [rewrite <- H; cbn; auto|]). destruct H.
    + intro H. cbn [plain_dims In] in H. repeat (destruct H as [H|H]; [injection H; intros <- <-; reflexivity|]). destruct H.
  - intros n c. cbn [st_dim_constr default_sym]. unfold dim_constr_fun.
    destruct (str_eqb n $"fixed") eqn:X; [apply str_eqb_eq in X; cbn [In]; auto|].
    destruct (str_eqb n $"typevar") eqn:Z; [apply str_eqb_eq in Z; cbn [In]; auto|].
    destruct (str_eqb n $"ellipsis") eqn:Y; [apply str_eqb_eq in Y; cbn [In]; auto|discriminate].
  - eexists _, _, _. split; [reflexivity|]. split; [reflexivity|]. split; [reflexivity|]. cbn beta. split; [|split].
    + intros z d. unfold mk_fixed. destruct (Z.ltb_spec z 0); split; try discriminate; try lia.
      * intro H'. injection H' as <-. auto.
      * intros [_ ->]. auto.
    + intros s d. rewrite c_typevar_spec. split.
      * intros [c [r [H1 [H2 ->]]]]. injection H1 as ->. eauto.
      * intros [c [r [-> [H2 ->]]]]. eauto.
    + intros s d. unfold mk_ellipsis. split.
      * destruct s as [|c r]; cbn [mk_typevar bind]; [discriminate|]. destruct (isupper _ c) eqn:Eu; cbn [bind]; [|discriminate].
        intro H. injection H as <-. apply upper_spec in Eu. eauto.
      * intros [c [r [-> [H2 ->]]]]. cbn [mk_typevar]. apply upper_spec in H2. rewrite H2. reflexivity.
Qed.
Print Assumptions C63_dims.

(** For example, in any layout and for all numbers and texts: *)
Lemma lit_arg sym t a : Literal t a -> Arg sym true [t] a.
Proof. intro H. exact (AR_literal sym true [] t a (or_introl eq_refl) H). Qed.
Lemma lit_args sym t a : Literal t a -> Args sym true [t] [a] [].
Proof. intro H. apply A_one. apply lit_arg. exact H. Qed.
Lemma measure_good t : (forall u, Reach u t -> u = t) -> (forall n ps, t <> DataShapeT n ps) -> ~ IsEllipsis t -> AllGood (DataShapeT None [t]).
Proof.
  intros H1 H2 H3 n ps Hr. inversion Hr as [|n' ps' c' Hc Hr'| | | | |]; subst; [apply one_good; auto|].
  destruct Hc as [<-|[]]. apply H1 in Hr'. elim (H2 n ps). auto.
Qed.
Ltac leafgood := apply measure_good; [let u := fresh in let H := fresh in intros u H; inversion H; reflexivity|discriminate|intros [? ?]; discriminate].
Ltac call name := apply (constr_text _ _ name _ _ _ ltac:(assumption) ltac:(cbn; auto 20) ltac:(discriminate) ltac:(eassumption)).
Lemma Latest_two n a m b : n <> m -> Latest [(n, a); (m, b)] [(n, a); (m, b)].
Proof.
  intro H. split.
  - cbn. constructor; [intros [X|[]]; auto|]. constructor; [intros []|constructor].
  - intros k v. cbn. split.
    + intros [X|[X|[]]]; injection X as <- <-; [exists [], [(m, b)]|exists [(n, a)], []]; cbn; split; auto. intros [X|[]]; auto.
    + intros [[|x [|y p]] [q [X _]]]; cbn in X; injection X; intros; subst; auto. destruct p; discriminate.
Qed.
Lemma Latest_nil : Latest [] [].
Proof. split; [constructor|]. intros n a. split; [intros []|]. intros [[|] [q [H _]]]; discriminate. Qed.
Theorem C63_decimal : forall E x p s, disc_ok E ->
  (Layout [(KLower, VStr $"decimal"); tok KLBk; (KInt, VInt p); tok KRBk] x ->
     dshape E x = Ok (DataShapeT None [DecimalT p 0])) /\
  (Layout [(KLower, VStr $"decimal"); tok KLBk; (KInt, VInt p); tok KComma; (KInt, VInt s); tok KRBk] x ->
     dshape E x = Ok (DataShapeT None [DecimalT p s])) /\
  (Layout [(KLower, VStr $"decimal"); tok KLBk; (KLower, VStr $"scale"); tok KEq; (KInt, VInt s); tok KComma;
           (KLower, VStr $"precision"); tok KEq; (KInt, VInt p); tok KRBk] x ->
     dshape E x = Ok (DataShapeT None [DecimalT p s])).
Proof.
  intros E x p s HE. split; [|split]; intro HL.
  - apply (constr_text E x $"decimal" [($"precision", true); ($"scale", false)] [(KInt, VInt p)]); auto; [cbn; auto 20|discriminate|].
    exists [AInt p], [], [], [Some (AInt p); None], (DecimalT p 0).
    split; [apply lit_args; constructor|]. split; [left; discriminate|]. split; [apply Latest_nil|]. split; [|split; [constructor|split; [auto|leafgood]]].
    split; cbn; auto.
    + intros [|[|i]] a Hi; try discriminate. injection Hi as <-. reflexivity.
    + intros n a [].
    + intros [|[|i]] n r Hi Hl _; cbn in Hi; [lia|injection Hi as <- <-; auto|destruct i; discriminate].
  - apply (constr_text E x $"decimal" [($"precision", true); ($"scale", false)] [(KInt, VInt p); tok KComma; (KInt, VInt s)]); auto; [cbn; auto 20|discriminate|].
    exists [AInt p; AInt s], [], [], [Some (AInt p); Some (AInt s)], (DecimalT p s).
    split; [apply (A_more _ _ [(KInt, VInt p)]); [apply lit_arg; constructor|apply lit_args; constructor]|].
    split; [left; discriminate|]. split; [apply Latest_nil|]. split; [|split; [constructor|split; [auto|leafgood]]].
    split; cbn; auto.
    + intros [|[|[|i]]] a Hi; try discriminate; injection Hi as <-; reflexivity.
    + intros n a [].
    + intros [|[|i]] n r Hi Hl _; cbn in Hi; [lia|lia|destruct i; discriminate].
  - apply (constr_text E x $"decimal" [($"precision", true); ($"scale", false)]
      [(KLower, VStr $"scale"); tok KEq; (KInt, VInt s); tok KComma; (KLower, VStr $"precision"); tok KEq; (KInt, VInt p)]); auto; [cbn; auto 20|discriminate|].
    exists [], [($"scale", AInt s); ($"precision", AInt p)], [($"scale", AInt s); ($"precision", AInt p)], [Some (AInt p); Some (AInt s)], (DecimalT p s).
    split; [|split; [right; discriminate|split; [apply Latest_two; discriminate|split; [|split; [constructor|split; [auto|leafgood]]]]]].
    + apply (A_kwargs _ _ [] $"scale"); [left; auto| |reflexivity|left; reflexivity].
      apply (K_more _ _ $"scale" [(KInt, VInt s)]); [apply lit_arg; constructor|]. apply K_one. apply lit_arg; constructor.
    + split; auto.
      * cbn; lia.
      * intros [|i] a Hi; discriminate.
      * intros n a [H|[H|[]]]; injection H as <- <-; [exists 1%nat, false|exists 0%nat, true]; split; auto; split; auto; cbn; lia.
      * intros [|[|i]] n r Hi Hl Hn; cbn in Hi; try (injection Hi as <- <-; elim Hn; cbn; auto); destruct i; discriminate.
Qed.
Print Assumptions C63_decimal.
(** Concrete instances *)
Example C63_case :
  dshape E0 $"decimal[scale=2, precision=9]" = Ok (DataShapeT None [DecimalT 9 2]) /\
  dshape E0 $"string[10, 'utf-16']" = Ok (DataShapeT None [StringT (Some 10) $"U16"]) /\
  dshape E0 $"decimal[scale=2]" = Raise TypeErr /\ dshape E0 $"decimal[9, precision=8]" = Raise TypeErr /\
  dshape E0 $"timedelta[date]" = Ok (DataShapeT None [TimeDeltaT $"D"]) /\
  Bound [($"precision", true); ($"scale", false)] [AInt 9] [($"scale", AInt 2)] [Some (AInt 9); Some (AInt 2)].
Proof.
  split; [vm_compute; reflexivity|]. split; [vm_compute; reflexivity|]. split; [vm_compute; reflexivity|].
  split; [vm_compute; reflexivity|]. split; [vm_compute; reflexivity|].
  apply (call_bind_spec [($"precision", true); ($"scale", false)]); [apply nodup_str_NoDup; reflexivity|apply nodup_str_NoDup; reflexivity|reflexivity].
Qed.
