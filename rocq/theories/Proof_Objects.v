(** Sequence protocol, rebuilding, [dshape] on objects, error text (C50-C52, C09). *)
From Verif Require Import Base Types Lexer Printer Construct Parser Ops Preds Numpy Objects
  Spec_Eq Spec_WF Spec_Ops Spec_Preds Proof_WF Proof_Eq Proof_Parser Proof_Ops Proof_Ops2 Proof_Preds Proof_Numpy.
Local Open Scope Z_scope.

Lemma WF_Inv t : WF t -> Inv t.
Proof. intro H. apply H. constructor. Qed.
Lemma unnamed_eq n m ps : ps <> [] -> py_eq (DataShapeT n ps) (DataShapeT m ps) = true.
Proof.
  intro N. pose proof (py_eq_refl (DataShapeT n ps)) as H. rewrite py_eq_unfold in H. rewrite py_eq_unfold.
  cbn [shape measure] in *.
  replace (last ps (DataShapeT m ps)) with (last ps (DataShapeT n ps)); [exact H|].
  apply last_indep. exact N.
Qed.

(** ** rebuilding *)
Definition unnamed (t : ty) : ty := match t with DataShapeT _ ps => DataShapeT None ps | _ => t end.
Lemma unnamed_eqs t : WF t -> py_eq (unnamed t) t = true /\ py_eq t (unnamed t) = true.
Proof.
  intro H. destruct t; try (split; apply py_eq_refl). apply WF_Inv in H as [dims [m [E _]]]. cbn [unnamed].
  assert (parameters <> []) by (rewrite E; destruct dims; discriminate).
  split; apply unnamed_eq; auto.
Qed.
Lemma rebuild_ok U reg t : WF t ->
  (forall n i a, t <> CType n i a) -> (forall l n, t <> TypeSetT l n) ->
  (forall s, t = TypeVarT s -> isupper U (hd 0%N s) = true) ->
  (forall c u o, t = CategoricalT c u o -> is_DataShape u = false) ->
  rebuild U reg t = Ok (unnamed t).
Proof.
  intros HW NC NT HV HC. pose proof (WF_Inv t HW) as HI.
  destruct t; cbn [rebuild unnamed]; try reflexivity.
  - exfalso. eapply NC; reflexivity.
  - cbn [Inv] in HI. unfold mk_timedelta. unfold CanonicalUnit in HI. simpl in HI.
    repeat (destruct HI as [<-|HI]; [vm_compute; reflexivity|]). contradiction.
  - cbn [Inv] in HI. destruct HI as [n [l ->]]. reflexivity.
  - cbn [Inv] in HI. unfold CanonicalEncoding in HI. simpl in HI.
    repeat (destruct HI as [<-|HI]; [reflexivity|]). contradiction.
  - cbn [Inv] in HI. unfold mk_fixed. destruct (Z.ltb_spec val 0); [lia|reflexivity].
  - cbn [Inv] in HI. destruct HI as [c [r [-> _]]]. unfold mk_typevar. specialize (HV _ eq_refl). cbn [hd] in HV. rewrite HV. reflexivity.
  - apply mk_datashape_ok. exact HI.
  - unfold mk_option. cbn [launder bind]. rewrite notLone_launder by exact HI. reflexivity.
  - destruct HI as [H1 H2]. unfold mk_map. cbn [launder bind]. rewrite !notLone_launder by assumption. reflexivity.
  - destruct HI as [N L]. apply mk_record_iff. exists (map snd fields). split; [|split].
    + clear -L. induction fields as [|f fields IH]; [constructor|]. cbn [map]. constructor; [|apply IH; intros; apply L; right; auto].
      cbn [snd launder]. rewrite notLone_launder; [reflexivity|]. apply L. left; auto.
    + rewrite map_map. cbn [fst]. exact N.
    + f_equal. rewrite map_map. cbn [fst]. clear. induction fields as [|[n t] fields IH]; [reflexivity|]. cbn. f_equal; auto.
  - f_equal. f_equal. specialize (HC _ _ _ eq_refl). match goal with |- measure ?x = _ => destruct x; try reflexivity end; discriminate.
  - cbn [Inv] in HI. unfold mk_tuple.
    assert (E : mapM (tuple_item no_dsh) (map PTy dshapes) = Ok dshapes).
    { clear -HI. induction dshapes as [|d dshapes IH]; [reflexivity|]. cbn [map]. rewrite mapM_cons, IH by (intros; apply HI; right; auto).
      destruct (HI d) as [n [l ->]]; [left; auto|]. reflexivity. }
    rewrite E. reflexivity.
  - exfalso. eapply NT; reflexivity.
Qed.

(** ** sequences *)
Lemma py_nth_in {A} (l : list A) i x : py_nth l i = Ok x <->
  (0 <= i /\ nth_error l (Z.to_nat i) = Some x) \/
  (i < 0 /\ 0 <= Z.of_nat (length l) + i /\ nth_error l (Z.to_nat (Z.of_nat (length l) + i)) = Some x).
Proof.
  unfold py_nth. destruct (Z.ltb_spec i 0) as [Hi|Hi].
  - destruct (Z.ltb_spec (Z.of_nat (length l) + i) 0) as [H1|H1]; cbn [orb].
    + split; [discriminate|lia].
    + destruct (Z.leb_spec (Z.of_nat (length l)) (Z.of_nat (length l) + i)); [lia|].
      destruct (nth_error l _) eqn:E; split; intro H0; try discriminate.
      * injection H0 as <-. right. auto.
      * destruct H0 as [[? _]|[_ [_ H0]]]; [lia|exact (f_equal Ok (f_equal (fun o => match o with Some a => a | None => x end) H0))].
      * destruct H0 as [[? _]|[_ [_ H0]]]; [lia|discriminate].
  - destruct (Z.ltb_spec i 0); [lia|]. cbn [orb].
    destruct (Z.leb_spec (Z.of_nat (length l)) i).
    + split; [discriminate|]. intros [[_ H1]|[? _]]; [|lia]. apply nth_error_Some_lt in H1 || (assert (X : (Z.to_nat i < length l)%nat) by (apply nth_error_Some; congruence); lia).
    + destruct (nth_error l _) eqn:E; split; intro H1; try discriminate.
      * injection H1 as <-. left; auto.
      * destruct H1 as [[_ H1]|[? _]]; [|lia]. congruence.
      * destruct H1 as [[_ H1]|[? _]]; [|lia]. discriminate.
Qed.
From Verif Require Import Spec_Objects Proof_Preds2 Prop_Parser Prop_Preds Prop_Eq.
Lemma ItemAt_nth {A} (l : list A) i x : ItemAt l i x <->
  (0 <= i /\ nth_error l (Z.to_nat i) = Some x) \/
  (i < 0 /\ 0 <= Z.of_nat (length l) + i /\ nth_error l (Z.to_nat (Z.of_nat (length l) + i)) = Some x).
Proof.
  split.
  - intros [pre [post [-> [-> | ->]]]].
    + left. split; [lia|]. rewrite Nat2Z.id, nth_error_app2 by lia. rewrite Nat.sub_diag. reflexivity.
    + right. rewrite app_length. cbn [length].
      replace (Z.of_nat (length pre + S (length post)) + - Z.of_nat (S (length post))) with (Z.of_nat (length pre)) by lia.
      split; [lia|]. split; [lia|]. rewrite Nat2Z.id, nth_error_app2 by lia. rewrite Nat.sub_diag. reflexivity.
  - intros [[H1 H2]|[H1 [H2 H3]]].
    + apply nth_error_split in H2 as [pre [post [-> E]]]. exists pre, post. split; auto. left. lia.
    + apply nth_error_split in H3 as [pre [post [E1 E]]]. exists pre, post. split; auto. right.
      rewrite E1, app_length in *. cbn [length] in *. lia.
Qed.
Lemma py_nth_item {A} (l : list A) i x : py_nth l i = Ok x <-> ItemAt l i x.
Proof. rewrite ItemAt_nth. apply py_nth_in. Qed.
Lemma py_nth_raise {A} (l : list A) i e : py_nth l i = Raise e -> e = IndexErr.
Proof. unfold py_nth. destruct (_ || _); [congruence|]. destruct (nth_error _ _); congruence. Qed.
Lemma ds_parts n ps : WF (DataShapeT n ps) -> ps = shape (DataShapeT n ps) ++ [measure (DataShapeT n ps)].
Proof.
  intro H. apply WF_Inv in H as [dims [m [-> _]]]. cbn [shape measure]. rewrite removelast_last, last_last. reflexivity.
Qed.
Lemma seq_datashape n ps : WF (DataShapeT n ps) ->
  let ds := DataShapeT n ps in let all := shape ds ++ [measure ds] in
  py_len ds = length all /\ py_iter ds = Ok all /\
  (forall i x, py_getitem ds i = Ok x <-> ItemAt all i x) /\
  (forall i e, py_getitem ds i = Raise e -> e = IndexErr) /\
  (forall a b c, py_getslice ds a b c = py_slice all a b c).
Proof.
  intros H ds all. assert (E : ps = all) by (apply ds_parts; exact H).
  assert (EE : ds = DataShapeT n all) by (unfold ds; f_equal; exact E).
  rewrite EE. cbn [py_len py_iter py_getitem py_getslice].
  split; [reflexivity|]. split; [reflexivity|]. split; [intros i x; apply py_nth_item|].
  split; [intros i e; apply py_nth_raise|reflexivity].
Qed.
Lemma seq_measure t : is_DataShape t = false -> is_Record t = false -> is_TypeSet t = false ->
  py_len t = 1%nat /\ py_iter t = Ok [t] /\
  (forall i x, py_getitem t i = Ok x <-> (i = 0 \/ i = -1) /\ x = t) /\
  (forall i e, py_getitem t i = Raise e -> e = IndexErr) /\
  (forall a b c, py_getslice t a b c = py_slice [t] a b c).
Proof.
  intros H1 H2 H3.
  assert (G : forall i, py_getitem t i = py_nth [t] i) by (destruct t; try discriminate; reflexivity).
  split; [destruct t; try discriminate; reflexivity|]. split; [destruct t; try discriminate; reflexivity|].
  split; [|split; [intros i e; rewrite G; apply py_nth_raise|destruct t; try discriminate; reflexivity]].
  intros i x. rewrite G, py_nth_item. split.
  - intros [pre [post [E H]]]. destruct pre as [|y pre].
    + injection E as -> <-. cbn in H. split; auto.
    + injection E as _ E. destruct pre; discriminate.
  - intros [H ->]. exists [], []. split; auto.
Qed.

(** ** dshape on objects *)
Lemma dshape_wrap t : WF t -> is_DataShape t = false -> ~ DimensionClass t -> mk_ds [t] = Ok (DataShapeT None [t]).
Proof.
  intros HW HD HM. apply mk_ds_ok. exists [], t. split; [reflexivity|]. split; auto. split; [intros d []|].
  intros x [<-|[]] [n [y ->]]. discriminate.
Qed.
Lemma validate_lone t : IsEllipsis t \/ validate (DataShapeT None [t]) = validate t.
Proof.
  destruct (is_Ellipsis t) eqn:E; [left; destruct t; try discriminate; eexists; reflexivity|right].
  cbn [validate mapM]. destruct (validate t) as [[]|]; [|reflexivity]. cbn [bind validate_ds].
  cbn [filter]. rewrite E. cbn [length Nat.ltb Nat.leb last]. rewrite E. reflexivity.
Qed.
Lemma dshape_object t : WF t -> is_TypeSet t = false -> ~ DimensionClass t -> AllGood t ->
  exists d, dshape_ty t = Ok d /\ py_eq d t = true /\ py_eq t d = true /\ shape d = shape t /\ measure d = measure t.
Proof.
  intros HW HT HM HG. destruct (is_DataShape t) eqn:HD.
  - exists t. split; [destruct t; try discriminate; reflexivity|]. rewrite py_eq_refl. auto.
  - apply (proj2 (proj1 (C24_validate t))) in HG.
    assert (E : dshape_ty t = let wrap := is_Unit t || match t with RecordT _ | JSONT => true | _ => false end in
       let! d := if wrap then mk_ds [t] else Ok t in let! _ := validate d in Ok d) by (destruct t; try discriminate; reflexivity).
    rewrite E. cbv zeta. clear E. destruct (is_Unit t || _) eqn:W.
    + rewrite dshape_wrap by auto. cbn [bind]. destruct (validate_lone t) as [[o ->]|V]; [discriminate|].
      rewrite V, HG. cbn [bind]. exists (DataShapeT None [t]). split; [reflexivity|].
      assert (HS : shape t = []) by (destruct t; try discriminate; reflexivity).
      destruct (C15_lone_measure None t HS HM HT) as [X1 X2]; [intros m l ->; discriminate|].
      cbn [shape measure removelast last]. rewrite HS. destruct t; try discriminate; auto.
    + cbn [bind]. rewrite HG. exists t. rewrite py_eq_refl. auto.
Qed.
Lemma dshape_object_raises t e : WF t -> is_TypeSet t = false ->
  (dshape_ty t = Raise e <-> e = TypeErr /\ ~ IsDataShape t /\ (DimensionClass t \/ ~ AllGood t)).
Proof.
  intros HW HT. destruct (is_DataShape t) eqn:HD.
  { destruct t; try discriminate. split; [discriminate|].
    intros [_ [N _]]. exfalso; apply N; eexists; eexists; reflexivity. }
  assert (ND : ~ IsDataShape t) by (intros [n [l ->]]; discriminate).
  assert (DC : DimensionClass t \/ ~ DimensionClass t).
  { destruct t; try (right; intro X; inversion X; fail); left; constructor. }
  destruct DC as [DC|DC].
  { assert (R : dshape_ty t = Raise TypeErr) by (destruct DC; reflexivity). rewrite R. split.
    - intro H; injection H as <-. auto.
    - intros [-> _]; reflexivity. }
  destruct (validate_spec t) as [[V G]|[V G]].
  - destruct (dshape_object t HW HT DC G) as [d [-> _]]. split; [discriminate|].
    intros [_ [_ [X|X]]]; contradiction.
  - assert (R : dshape_ty t = Raise TypeErr).
    { assert (E : dshape_ty t = let wrap := is_Unit t || match t with RecordT _ | JSONT => true | _ => false end in
       let! d := if wrap then mk_ds [t] else Ok t in let! _ := validate d in Ok d) by (destruct t; try discriminate; reflexivity).
      rewrite E. cbv zeta. clear E. destruct (is_Unit t || _) eqn:W.
      - rewrite dshape_wrap by auto. cbn [bind]. destruct (validate_lone t) as [[o ->]|V']; [discriminate|].
        rewrite V', V. reflexivity.
      - cbn [bind]. rewrite V. reflexivity. }
    rewrite R. split.
    + intro H; injection H as <-. auto.
    + intros [-> _]; reflexivity.
Qed.
Lemma dshape_ty_idem t d : dshape_ty t = Ok d -> dshape_ty d = Ok d.
Proof.
  intro H. destruct (is_DataShape d) eqn:HD; [destruct d; try discriminate; reflexivity|].
  destruct (is_DataShape t) eqn:HT; [destruct t; try discriminate; injection H as <-; discriminate|].
  assert (E : dshape_ty t = let wrap := is_Unit t || match t with RecordT _ | JSONT => true | _ => false end in
       let! d := if wrap then mk_ds [t] else Ok t in let! _ := validate d in Ok d) by (destruct t; try discriminate; reflexivity).
  pose proof H as H0. rewrite E in H. cbv zeta in H. destruct (is_Unit t || _) eqn:W.
  - destruct (mk_ds [t]) as [x|] eqn:M; [|discriminate]. cbn [bind] in H. destruct (validate x); [|discriminate]. injection H as ->.
    unfold mk_ds, mk_datashape in M. cbn [map mapM launder bind] in M. unfold check_datashape in M.
    destruct (negb _); [discriminate|]. destruct (forallb _ _); [|discriminate]. injection M as <-. discriminate.
  - cbn [bind] in H. destruct (validate t); [|discriminate]. injection H as <-. exact H0.
Qed.
Lemma mk_datashape_isds dsh n l t : mk_datashape dsh n l = Ok t -> exists ps, t = DataShapeT n ps.
Proof.
  unfold mk_datashape. destruct l as [|[] [|]]; try discriminate;
  (destruct (mapM _ _); [|discriminate]); cbn [bind]; unfold check_datashape;
  (destruct (negb _); [discriminate|]); (destruct (forallb _ _); [|discriminate]); intro X; injection X as <-; eauto.
Qed.
Lemma dshape_any_idem E o d : disc_ok E -> dshape_any E o = Ok d -> dshape_any E (ATy d) = Ok d.
Proof.
  intros HE H. destruct o as [s|t|l|]; cbn [dshape_any] in *.
  - apply C07_parse_wf in H as [[n [l ->]] _]; auto.
  - eapply dshape_ty_idem; eauto.
  - unfold dshape_list in H. destruct (mk_datashape _ _ _) as [x|] eqn:M; [|discriminate]. cbn [bind] in H.
    destruct (validate x); [|discriminate]. injection H as <-. apply mk_datashape_isds in M as [ps ->]. reflexivity.
  - discriminate.
Qed.
Lemma mapM_app {A B} (f : A -> res B) l m : mapM f (l ++ m) = let! a := mapM f l in let! b := mapM f m in Ok (a ++ b).
Proof.
  induction l as [|x l IH]; cbn [app].
  - cbn [mapM bind]. destruct (mapM f m); reflexivity.
  - rewrite !mapM_cons, IH. destruct (f x); [|reflexivity]. cbn [bind]. destruct (mapM f l); [|reflexivity]. cbn [bind].
    destruct (mapM f m); reflexivity.
Qed.
Lemma dshape_of_list E dims s m : disc_ok E -> dims <> [] -> Forall (fun z => 0 <= z) dims -> dshape E s = Ok (DataShapeT None [m]) ->
  dshape_any E (AList (map PInt dims ++ [PStr s])) = Ok (DataShapeT None (map FixedT dims ++ [m])).
Proof.
  intros HE HN HD H. cbn [dshape_any]. unfold dshape_list.
  pose proof (C07_parse_wf E s _ HE H) as [_ [HW _]]. pose proof (C24_parse_validated E s _ H) as HG.
  assert (M : mk_datashape (fun s => dshape E s) None (map PInt dims ++ [PStr s]) = check_datashape None (map FixedT dims ++ [m])).
  { unfold mk_datashape. assert (X : mapM (launder (fun s => dshape E s)) (map PInt dims ++ [PStr s]) = Ok (map FixedT dims ++ [m])).
    { rewrite mapM_app. replace (mapM (launder _) (map PInt dims)) with (@Ok (list ty) (map FixedT dims)).
      - cbn [bind mapM]. cbn [launder]. rewrite H. reflexivity.
      - symmetry. clear -HD. induction HD as [|z l Hz _ IH]; [reflexivity|]. cbn [map]. rewrite mapM_cons, IH. cbn [launder]. unfold mk_fixed.
        destruct (Z.ltb_spec z 0); [lia|reflexivity]. }
    destruct dims as [|z [|z' dims]]; [congruence| |]; cbn [map app] in *; rewrite X; reflexivity. }
  rewrite M. unfold check_datashape. rewrite last_last, removelast_last.
  assert (HM : may_be_measure m = true).
  { apply WF_Inv in HW as [d [m' [Em [Hm' _]]]]. destruct d as [|? [|]]; try discriminate. injection Em as <-.
    destruct m; try reflexivity; exfalso; apply Hm'; constructor. }
  rewrite HM. cbn [negb]. replace (forallb may_be_dim (map FixedT dims)) with true
    by (symmetry; apply forallb_forall; intros t Ht; apply in_map_iff in Ht as [? [<- _]]; reflexivity).
  cbn [bind].
  assert (HE' : is_Ellipsis m = false).
  { destruct (HG None [m] (R_here _)) as [_ HL]. destruct m; try reflexivity. exfalso. apply HL. eexists; reflexivity. }
  assert (HV : AllGood (DataShapeT None (map FixedT dims ++ [m]))).
  { intros n ps HR. inversion HR as [|n' ps' c Hc HR' | | | | | ]; subst.
    - split.
      + intros i j a b Hi Hj. exfalso. apply nth_error_In in Hi. apply in_app_iff in Hi as [Hi|[->|[]]]; [|discriminate].
        apply in_map_iff in Hi as [? [? _]]. discriminate.
      + rewrite last_last. intros [o ->]. discriminate.
    - apply in_app_iff in Hc as [Hc|[<-|[]]].
      + apply in_map_iff in Hc as [z [<- _]]. inversion HR'.
      + apply (HG n ps). eapply R_array; [left; reflexivity|exact HR']. }
  apply (proj2 (proj1 (C24_validate _))) in HV. rewrite HV. reflexivity.
Qed.

(** ** the caret *)
Lemma nth_repeat_caret k : nth_error (repeat 32%N k ++ [94%N]) k = Some 94%N.
Proof. rewrite nth_error_app2; rewrite repeat_length; [rewrite Nat.sub_diag; reflexivity|lia]. Qed.
Lemma caret_spec filename msg pos text c : nth_error text pos = Some c -> c <> 10%N ->
  exists before shown pointer after k,
    err_str filename msg (mk_syntax_error pos text) = before ++ [10%N] ++ shown ++ [10%N] ++ pointer ++ [10%N] ++ after /\
    before = [10; 10]%N ++ $"  File " ++ filename ++ $", line " ++ z2s (Z.of_nat (err_lineno (mk_syntax_error pos text))) /\
    after = [10%N] ++ $"DataShapeSyntaxError: " ++ msg ++ [10%N] /\
    NoNewline shown /\ NoNewline pointer /\
    nth_error shown k = Some c /\ nth_error pointer k = Some 94%N /\
    (forall j, nth_error pointer j = Some 94%N -> j = k) /\
    exists start, shown = $"    " ++ err_line (mk_syntax_error pos text) /\
      LineAt text (err_lineno (mk_syntax_error pos text)) (err_line (mk_syntax_error pos text)) start /\ k = (4 + (pos - start))%nat.
Proof.
  intros Hc Nc. assert (Hp : (pos < length text)%nat) by (apply nth_error_Some; congruence).
  destruct (C09_line_and_column pos text) as [start [HL [H1 [H2 H3]]]]; [lia|].
  set (e := mk_syntax_error pos text) in *. unfold err_str.
  exists (nls ++ nls ++ $"  File " ++ filename ++ $", line " ++ n2s (N.of_nat (err_lineno e))),
    ($"    " ++ err_line e), ($"    " ++ repeat 32%N (Z.to_nat (err_col e)) ++ $"^"),
    (nls ++ $"DataShapeSyntaxError: " ++ msg ++ nls), (4 + (pos - start))%nat.
  split; [rewrite <- !app_assoc; reflexivity|].
  split; [cbn [nls app]; do 2 f_equal; unfold e; reflexivity|]. split; [reflexivity|].
  assert (HN : NoNewline (err_line e)) by (destruct HL as [? [? [_ [_ [_ [_ [HN _]]]]]]]; exact HN).
  split; [intro X; apply in_app_iff in X as [X|X]; [vm_compute in X; intuition discriminate|exact (HN X)]|].
  split. { intro X. apply in_app_iff in X as [X|X]; [vm_compute in X; intuition discriminate|].
    apply in_app_iff in X as [X|X]; [apply repeat_spec in X; discriminate|vm_compute in X; intuition discriminate]. }
  rewrite H2, Nat2Z.id.
  assert (HC : nth_error (err_line e) (pos - start) = Some c).
  { destruct HL as [pre [post [E [Ep [_ [_ [_ HPost]]]]]]].
    assert (X : nth_error (err_line e ++ post) (pos - start) = Some c).
    { rewrite <- Hc, E. rewrite (nth_error_app2 pre); [|lia]. rewrite Ep. reflexivity. }
    destruct (Nat.lt_ge_cases (pos - start) (length (err_line e))) as [L|L]; [rewrite nth_error_app1 in X by auto; exact X|].
    rewrite nth_error_app2 in X by auto. replace (pos - start - length (err_line e))%nat with 0%nat in X by lia.
    destruct HPost as [->|[r ->]]; [discriminate|]. cbn in X. congruence. }
  split; [cbn [app s2l]; exact HC|]. split; [exact (nth_repeat_caret (pos - start))|].
  split; [|exists start; auto].
  intros j Hj. do 4 (destruct j as [|j]; [discriminate|]). cbn in Hj.
  assert (X : j = (pos - start)%nat); [|lia].
  destruct (Nat.lt_ge_cases j (pos - start)) as [L|L].
  - rewrite nth_error_app1 in Hj by (rewrite repeat_length; auto). apply nth_error_In, repeat_spec in Hj. discriminate.
  - rewrite nth_error_app2 in Hj by (rewrite repeat_length; auto). rewrite repeat_length in Hj.
    destruct (j - (pos - start))%nat as [|k] eqn:Ek; [lia|]. destruct k; discriminate.
Qed.
