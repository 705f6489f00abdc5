(** What is read back equals what was printed. *)
From Verif Require Import Base Types Lexer Printer Construct Parser Ops Preds Spec_Lexer Spec_WF Spec_Preds Spec_Print
  Proof_Lexer Proof_WF Proof_Eq Proof_Ops Proof_ParserRel Proof_Parser Proof_Preds Proof_Preds2 Proof_Print Spec_Grammar
  Proof_Grammar Proof_Grammar2 Proof_Grammar3 Proof_Print2 Proof_Print3.

Lemma Printable_child U t c : Printable U t -> In c (children t) -> Printable U c.
Proof. intros [HW HX] Hc. split; intros u Hu; [apply HW|apply HX]; eapply Occurs_in; eauto. Qed.
Lemma Printable_here U t : Printable U t -> Inv t /\ Lexable U t.
Proof. intros [HW HX]. split; [apply HW|apply HX]; constructor. Qed.

Lemma map_removelast {A B} (f : A -> B) l : map f (removelast l) = removelast (map f l).
Proof.
  destruct (list_rev_case l) as [->|[l' [x ->]]]; [reflexivity|].
  rewrite map_app. cbn [map]. rewrite !removelast_last. reflexivity.
Qed.
Lemma last_map {A B} (f : A -> B) l d : last (map f l) (f d) = f (last l d).
Proof.
  destruct (list_rev_case l) as [->|[l' [x ->]]]; [reflexivity|].
  rewrite map_app. cbn [map]. rewrite !last_last. reflexivity.
Qed.
Lemma shape_norm t : shape (norm t) = map norm (shape t).
Proof.
  induction t using ty_ind'; try reflexivity.
  - cbn [norm shape]. rewrite map_removelast. reflexivity.
  - exact IHt.
Qed.
Lemma measure_norm t : measure (norm t) = norm (measure t).
Proof. destruct t; try reflexivity. cbn [measure norm]. rewrite <- (last_map norm). reflexivity. Qed.

Lemma list_eqb_map_r {A} (f : A -> A -> bool) g l : (forall x, In x l -> f x (g x) = true) -> list_eqb f l (map g l) = true.
Proof. induction l as [|x l IH]; intro H; [reflexivity|]. cbn [map list_eqb]. rewrite H by (left; auto). apply IH. intros; apply H; right; auto. Qed.

Lemma whole_info p : IsMeasure p -> is_TypeSet p = false -> py_eq p (norm p) = true -> info_eqb py_eq p (norm p) = true.
Proof.
  intros [H1 [H2 H3]] HT H. rewrite py_eq_unfold in H.
  destruct p; try (apply andb_true_iff in H as [_ H]; exact H); try discriminate.
  - exfalso. apply H2. constructor.
  - exfalso. apply H1. eexists; eexists; reflexivity.
Qed.
Lemma lexable_typeset U t : Lexable U t -> is_TypeSet t = false.
Proof. destruct t; auto. intros []. Qed.
Lemma py_eq_bare U p : Printable U p -> IsMeasure p -> shape p = [] -> py_eq p (norm p) = true ->
  py_eq p (DataShapeT None [norm p]) = true.
Proof.
  intros HP HM HS H. pose proof (lexable_typeset U p (proj2 (Printable_here U p HP))) as HT.
  pose proof (whole_info p HM HT H) as HI. rewrite py_eq_unfold. cbn [shape measure last removelast]. rewrite HS.
  destruct HM as [H1 [H2 H3]].
  destruct p; try exact HI; try discriminate.
  - exfalso. apply H2. constructor.
  - exfalso. apply H1. eexists; eexists; reflexivity.
Qed.
Lemma py_eq_norm U t : Printable U t -> py_eq t (norm t) = true.
Proof.
  induction t as [t IH] using tsize_strong. intro HP.
  destruct (Printable_here U t HP) as [HI HL].
  assert (IC : forall u c, In u (t :: children t) -> In c (children u) -> (tsize c < tsize t)%nat -> py_eq c (norm c) = true).
  { intros u c Hu Hc Hs. apply IH; auto. destruct Hu as [<-|Hu]; [eapply Printable_child; eauto|].
    eapply Printable_child; [eapply Printable_child|]; eauto. }
  assert (IS : list_eqb py_eq (shape t) (shape (norm t)) = true).
  { rewrite shape_norm. apply list_eqb_map_r. intros x Hx. apply IH; [apply shape_size; auto|].
    clear IC IH. induction t using ty_ind'; cbn [shape] in Hx; try contradiction.
    - apply (Printable_child U (DataShapeT n ps)); auto. cbn [children]. apply in_removelast; auto.
    - destruct (Printable_here U (OptionT t) HP) as [A B]. apply IHt; auto.
      + apply (Printable_child U (OptionT t)); auto. left; auto.
      + apply (Printable_here U t). apply (Printable_child U (OptionT t)); auto. left; auto.
      + apply (Printable_here U t). apply (Printable_child U (OptionT t)); auto. left; auto. }
  assert (IM : info_eqb py_eq (measure t) (measure (norm t)) = true).
  { rewrite measure_norm. pose proof (measure_size t) as HMs.
    assert (HPm : Printable U (measure t)).
    { destruct t; auto. cbn [measure]. cbn [Lexable] in HL. destruct HL as [_ [dims [m [-> _]]]]. rewrite last_last.
      eapply Printable_child; eauto. cbn [children]. apply in_app_iff. right; left; auto. }
    assert (ICm : forall c, In c (children (measure t)) -> py_eq c (norm c) = true).
    { intros c Hc. apply IH; [|eapply Printable_child; eauto].
      pose proof (comps_size c (measure t)) as X. rewrite Proof_Canon.comps_children in X. specialize (X Hc). lia. }
    assert (ICz : forall c, In c (children (measure t)) -> Printable U c) by (intros; eapply Printable_child; eauto).
    destruct (Printable_here U _ HPm) as [HIm HLm]. clear IC IS HP HI HL IH HMs.
    generalize dependent (measure t). clear t. intros m HPm ICm ICz HIm HLm.
    destruct m; cbn [info_eqb norm children] in *; rewrite ?str_eqb_refl, ?Z.eqb_refl; auto.
    - apply ostr_eqb_eq; auto.
    - apply ostr_eqb_eq; auto.
    - simpl. apply ICm. left; auto.
    - rewrite (proj2 (oZ_eqb_eq _ _) eq_refl). reflexivity.
    - apply ostr_eqb_eq; auto.
    - apply list_eqb_map_r. auto.
    - apply ICm. left; auto.
    - apply list_eqb_map_r. intros p Hp. destruct (HLm p Hp) as [[Hm Hs]|Hd].
      + rewrite norm_nonds by (apply Hm). apply (py_eq_bare U); auto.
      + rewrite norm_ds by auto. auto.
    - rewrite !ICm; simpl; auto.
    - apply list_eqb_map_r. intros [n u] Hu. unfold field_eqb. cbn [fst snd]. rewrite str_eqb_refl. cbn [andb]. apply ICm.
      apply in_map_iff. exists (n, u). auto.
    - rewrite (list_eqb_refl lit_eqb) by (intros; apply lit_eqb_refl). rewrite ICm by (left; auto). destruct ordered; reflexivity.
    - apply list_eqb_map_r. auto. }
  rewrite py_eq_unfold. destruct t; try (rewrite IS, IM; reflexivity); [apply Z.eqb_refl|contradiction].
Qed.

(** ** validation *)
Lemma norm_ellipsis t o : norm t = EllipsisT o -> t = EllipsisT o.
Proof. destruct t; simpl; intro H; try discriminate; exact H. Qed.
Lemma GoodArray_norm ps : GoodArray ps -> GoodArray (map norm ps).
Proof.
  intros [H1 H2]. split.
  - intros i j a b Hi Hj. rewrite nth_error_map in Hi, Hj.
    destruct (nth_error ps i) as [x|] eqn:Ei; [|discriminate]. destruct (nth_error ps j) as [y|] eqn:Ej; [|discriminate].
    injection Hi as Hi. injection Hj as Hj. apply norm_ellipsis in Hi, Hj. subst. eapply H1; eauto.
  - intros [o H]. apply H2. exists o. change NullT with (norm NullT) in H. rewrite last_map in H. apply norm_ellipsis. auto.
Qed.
Lemma GoodArray_one x : (forall o, x <> EllipsisT o) -> GoodArray [norm x].
Proof.
  intro H. split.
  - intros [|i] j a b Hi Hj; [|destruct i; discriminate]. injection Hi as Hi. apply norm_ellipsis in Hi. exfalso. exact (H a Hi).
  - intros [o X]. simpl in X. apply norm_ellipsis in X. exact (H o X).
Qed.
Lemma Reach_array u n ps : Reach u (DataShapeT n ps) -> DataShapeT n ps = u \/ exists c, In c ps /\ Reach u c.
Proof. intro H. inversion H; subst; eauto. Qed.
Lemma Reach_norm U t : Printable U t -> forall n ps, Reach (DataShapeT n ps) (norm t) -> AllGood t -> GoodArray ps.
Proof.
  induction t as [t IH] using children_ind. intros HP n ps HR HA.
  destruct (Printable_here U t HP) as [HI HL].
  assert (IC : forall c, In c (children t) -> Reach (DataShapeT n ps) (norm c) -> AllGood c -> GoodArray ps).
  { intros c Hc Hr Ha. eapply IH; eauto. eapply Printable_child; eauto. }
  assert (HB : forall c, In c (children t) -> AllGood c -> IsMeasure c \/ IsDataShape c -> Reach (DataShapeT n ps) (asds (norm c)) -> GoodArray ps).
  { intros c Hc Ha Hw Hr. unfold asds in Hr. destruct (is_DataShape (norm c)) eqn:Ed; [eauto|].
    apply Reach_array in Hr as [E|[c' [[<-|[]] Hr']]]; [injection E as _ <-|eauto].
    apply GoodArray_one. intros o ->. destruct Hw as [[_ [_ X]]|[? [? X]]]; [exact (X o eq_refl)|discriminate]. }
  destruct t; cbn [norm children Lexable] in *; try (inversion HR; fail).
  - apply Reach_array in HR as [E|[c' [Hc Hr']]].
    + injection E as _ <-. apply GoodArray_norm. apply (HA name). constructor.
    + apply in_map_iff in Hc as [c [<- Hc]]. eapply IC; eauto. intros m qs Hm. apply (HA m). eapply R_array; eauto.
  - assert (Hr' : Reach (DataShapeT n ps) (norm t)) by (inversion HR; subst; auto). eapply IC; [left; auto|eauto|]. intros m qs Hm. apply (HA m). apply R_option; auto.
  - assert (Hr' : exists c', In c' (map (fun p => asds (norm p)) parameters) /\ Reach (DataShapeT n ps) c') by (inversion HR; subst; eauto).
    destruct Hr' as [c' [Hc Hr']]. apply in_map_iff in Hc as [c [<- Hc]].
    eapply HB; eauto.
    + intros m qs Hm. apply (HA m). eapply R_function; eauto.
    + destruct (HL c Hc) as [[? _]|?]; auto.
  - assert (Hr' : Reach (DataShapeT n ps) (norm t1) \/ Reach (DataShapeT n ps) (norm t2)) by (inversion HR; subst; auto).
    destruct Hr' as [Hr'|Hr'].
    + eapply (IC t1); [left; auto|exact Hr'|]. intros m qs Hm. apply (HA m). apply R_key; auto.
    + eapply (IC t2); [right; left; auto|exact Hr'|]. intros m qs Hm. apply (HA m). apply R_value; auto.
  - assert (Hr' : Reach (DataShapeT n ps) (norm t)) by (inversion HR; subst; auto). eapply IC; [left; auto|eauto|]. intros m qs Hm. apply (HA m). apply R_cat; auto.
Qed.
Lemma AllGood_norm U t : Printable U t -> IsMeasure t \/ IsDataShape t -> AllGood t -> AllGood (asds (norm t)).
Proof.
  intros HP HW HA n ps HR. unfold asds in HR. destruct (is_DataShape (norm t)) eqn:Ed; [eapply Reach_norm; eauto|].
  apply Reach_array in HR as [E|[c' [[<-|[]] Hr']]]; [injection E as _ <-|eapply Reach_norm; eauto].
  apply GoodArray_one. intros o ->. destruct HW as [[_ [_ X]]|[? [? X]]]; [exact (X o eq_refl)|discriminate].
Qed.

(** ** the round trip *)
Theorem print_parse E t m : disc_ok E -> Printable (e_uni E) t -> IsMeasure t \/ IsDataShape t -> AllGood t ->
  dshape E (pp (e_uni E) m t) = Ok (asds (norm t)).
Proof.
  intros HE HP HW HA. destruct (printable_G E (dshape E) t HP) as [w HG].
  apply dshape_exact; auto. exists w. split; [apply Pieces_Layout, (g_text _ _ _ _ HG)|].
  split; [apply (g_ds _ _ _ _ HG); auto|eapply AllGood_norm; eauto].
Qed.
Lemma norm_wf E t : disc_ok E -> Printable (e_uni E) t -> IsMeasure t \/ IsDataShape t -> AllGood t ->
  WF (asds (norm t)) /\ NoTypeSet (asds (norm t)).
Proof.
  intros HE HP HW HA. pose proof (print_parse E t MStr HE HP HW HA) as H.
  destruct (dshape_outcome E (pp (e_uni E) MStr t) HE) as [[u [H1 [_ H2]]]|[[q [m [H1 _]]]|[x [H1 _]]]]; rewrite H in H1; try discriminate.
  injection H1 as <-. tauto.
Qed.
Lemma Printable_notypeset U t : Printable U t -> NoTypeSet t.
Proof. intros [_ HX] l n Ho. exact (HX _ Ho). Qed.
Lemma print_parse_eq E t : disc_ok E -> Printable (e_uni E) t -> IsMeasure t \/ IsDataShape t -> AllGood t ->
  (IsMeasure t -> shape t = []) -> py_eq t (asds (norm t)) = true /\ py_eq (asds (norm t)) t = true.
Proof.
  intros HE HP HW HA HS.
  assert (H : py_eq t (asds (norm t)) = true).
  { destruct HW as [HW|HW].
    - rewrite norm_nonds by (apply HW). eapply py_eq_bare; eauto. eapply py_eq_norm; eauto.
    - rewrite norm_ds by auto. eapply py_eq_norm; eauto. }
  split; auto. rewrite <- H. destruct (norm_wf E t HE HP HW HA). destruct HP as [HP1 HP2].
  apply py_eq_sym; try apply wf_WF; try apply no_typeset_spec; auto. eapply Printable_notypeset; split; eauto.
Qed.

(** ** printing again *)
Lemma pp_asds U x : pp U MStr (asds x) = pp U MStr x.
Proof. unfold asds. destruct (is_DataShape x); reflexivity. Qed.
Lemma pp_norm U t : Printable U t -> forall m, pp U m (norm t) = pp U m t.
Proof.
  induction t as [t IH] using children_ind. intros HP m.
  destruct (Printable_here U t HP) as [HI HL].
  assert (IC : forall c, In c (children t) -> forall m, pp U m (norm c) = pp U m c).
  { intros c Hc. apply IH; auto. eapply Printable_child; eauto. }
  assert (PC : forall c, In c (children t) -> Printable U c) by (intros; eapply Printable_child; eauto).
  clear IH. destruct t; try reflexivity; cbn [children Lexable] in *.
  - (* Units *) cbn [norm pp].
    assert (HF : is_DS_float64 (norm t) = is_DS_float64 t).
    { assert (HPt : Printable U t) by (apply PC; left; auto).
      destruct (is_DS_float64 t) eqn:E1.
      - rewrite (float64_norm {| e_uni := U; e_disc := fun _ => Raise NotModelled |} t); [reflexivity|exact HI| |exact E1].
        apply (Printable_here U t HPt).
      - destruct (is_DS_float64 (norm t)) eqn:E2; auto. unfold is_DS_float64 in *. rewrite <- E1.
        symmetry. eapply py_eq_trans; [eapply py_eq_norm; eauto|exact E2]. }
    rewrite HF, IC by (left; auto). reflexivity.
  - (* DataShape *) destruct HL as [Hn _].
    assert (HJ : join $" * " (map (pp U MStr) (map norm parameters)) = join $" * " (map (pp U MStr) parameters)).
    { f_equal. rewrite map_map. apply map_ext_in. intros; apply IC; auto. }
    destruct m as [|w|r w]; cbn [norm pp].
    + destruct Hn as [-> | ->]; exact HJ.
    + set (go := fix go (acc : str) (l : list ty) : str :=
             match l with
             | [] => acc
             | x :: r =>
                 match r with
                 | [] => acc ++ pp U (MBody (Z.of_nat (length acc)) w) x
                 | _ => go (acc ++ pp U MStr x ++ $" * ") r
                 end
             end).
      enough (X : forall acc, go acc (map norm parameters) = go acc parameters) by (exact (X [])).
      clear HJ HI HP Hn PC. induction parameters as [|x l IHl]; intro acc; [reflexivity|].
      destruct l as [|y l].
      * cbn [map go]. rewrite IC by (left; auto). reflexivity.
      * change (go (acc ++ pp U MStr (norm x) ++ $" * ") (map norm (y :: l)) = go (acc ++ pp U MStr x ++ $" * ") (y :: l)).
        rewrite IC by (left; auto). apply IHl. intros; apply IC; right; auto.
    + destruct Hn as [-> | ->]; exact HJ.
  - cbn [norm pp]. rewrite IC by (left; auto). reflexivity.
  - cbn [norm pp]. rewrite map_map.
    assert (X : map (fun x => pp U MStr (asds (norm x))) parameters = map (pp U MStr) parameters).
    { apply map_ext_in. intros x Hx. rewrite pp_asds. auto. }
    rewrite X. reflexivity.
  - cbn [norm pp]. rewrite !IC by (simpl; auto). reflexivity.
  - cbn [norm pp].
    assert (X : forall r w, map (fun f => field_name U (fst f) ++ $": " ++ pp U (MPp (w - r - Z.of_nat (length (fst f)))) (snd f))
        (map (fun f => (fst f, norm (snd f))) fields) =
      map (fun f => field_name U (fst f) ++ $": " ++ pp U (MPp (w - r - Z.of_nat (length (fst f)))) (snd f)) fields).
    { intros r w. rewrite map_map. apply map_ext_in. intros [n u] Hu. cbn [fst snd]. rewrite IC; [reflexivity|].
      apply in_map_iff. exists (n, u). auto. }
    destruct m; rewrite X; reflexivity.
  - cbn [norm pp]. rewrite IC by (left; auto). reflexivity.
  - assert (X : forall m, map (pp U m) (map norm dshapes) = map (pp U m) dshapes).
    { intro m'. rewrite map_map. apply map_ext_in. intros; apply IC; auto. }
    destruct m; cbn [norm pp]; rewrite X; reflexivity.
Qed.
Lemma pp_asds_norm U t m : Printable U t -> IsDataShape t -> pp U m (asds (norm t)) = pp U m t.
Proof. intros HP HD. rewrite norm_ds by auto. apply pp_norm; auto. Qed.
Lemma str_asds_norm U t : Printable U t -> pp U MStr (asds (norm t)) = pp U MStr t.
Proof. intro HP. rewrite pp_asds. apply pp_norm; auto. Qed.

(** nothing changes if there are no names and function parameters are DataShapes *)
Lemma norm_id t : (forall n l, Occurs (DataShapeT n l) t -> n = None) ->
  (forall l u, Occurs (FunctionT l) t -> In u l -> IsDataShape u) -> norm t = t.
Proof.
  induction t as [t IH] using children_ind. intros HN HF.
  assert (IC : forall c, In c (children t) -> norm c = c).
  { intros c Hc. apply IH; auto.
    - intros n l Ho. eapply HN. eapply Occurs_in; eauto.
    - intros l u Ho. apply HF. eapply Occurs_in; eauto. }
  destruct t; try reflexivity; cbn [norm children] in *.
  - rewrite IC by (left; auto). reflexivity.
  - rewrite (HN _ _ (Occurs_here _)). f_equal. rewrite <- (map_id parameters) at 2. apply map_ext_in. auto.
  - rewrite IC by (left; auto). reflexivity.
  - f_equal. rewrite <- (map_id parameters) at 2. apply map_ext_in. intros u Hu.
    rewrite norm_ds; [auto|]. eapply HF; [constructor|auto].
  - rewrite !IC by (simpl; auto). reflexivity.
  - f_equal. rewrite <- (map_id fields) at 2. apply map_ext_in. intros [n u] Hu. cbn [fst snd]. rewrite IC; [reflexivity|].
    apply in_map_iff. exists (n, u). auto.
  - rewrite IC by (left; auto). reflexivity.
  - f_equal. rewrite <- (map_id dshapes) at 2. apply map_ext_in. auto.
Qed.
