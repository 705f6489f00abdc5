(** C47: consequences of Proof_Discovery6.v. *)
From Verif Require Import Base Types Lexer Printer Construct Parser Ops Preds Numpy Graph Discovery
  Spec_Eq Spec_WF Spec_Graph Spec_Ops Spec_Preds Spec_Discovery Spec_Dicts Spec_Found Spec_Print Proof_WF Proof_Parser
  Proof_Print4 Proof_Discovery6 Prop_Print.
Local Open Scope Z_scope.

Section Names.
Variable PN : str -> Prop.
Notation LF := (fun _ : ty => True).
Notation D := (D PN LF). Notation DM := (DM PN LF). Notation Dl := (Dl PN LF).
Lemma DDim_not_D d : DDim d -> DataDim d.
Proof. intros [n Hn|]; [left; eauto|right; auto]. Qed.
Lemma DM_child t c : DM t -> In c (children t) -> D c.
Proof.
  intros H Hc. destruct H as [t Ht Hl| | | | |u Hu Hl|f e He Hl|t Ht Ho|fs N NP Hf|ds Hd]; cbn [children] in Hc; try contradiction.
  - apply known_CType in Ht as [? [? [? ->]]]. contradiction.
  - destruct Hc as [<-|[]]. left; auto.
  - apply in_map_iff in Hc as [[n t] [E Hin]]. cbn in E. subst c. apply Dl_D. exact (Hf n t Hin).
  - destruct (Hd c Hc) as [dims [m [-> [H1 H2]]]]. right. eexists. split; [reflexivity|]. exists dims, m. auto.
Qed.
Lemma D_child t c : D t -> In c (children t) -> D c \/ DDim c.
Proof.
  intros [H|[ps [-> [dims [m [-> [H1 H2]]]]]]] Hc; [left; eapply DM_child; eauto|].
  cbn [children] in Hc. apply in_app_iff in Hc as [Hc|[<-|[]]]; [right; rewrite Forall_forall in H1; auto|left; left; auto].
Qed.
Lemma D_occurs u t : Occurs u t -> D t \/ DDim t -> D u \/ DDim u.
Proof.
  induction 1 as [|c t Hc _ IH]; auto. intros [H|H]; apply IH.
  - eapply D_child; eauto.
  - destruct H; contradiction.
Qed.
Lemma DM_not_dim t : DM t -> DataElem t.
Proof.
  intros [c Hc Hl| | | | |u Hu Hl|f e He Hl|m Hm Ho|fs N NP Hf|ds Hd]; cbn [DataElem]; auto.
  - destruct (known_CType c Hc) as [n [i [a E]]]. subst c. cbn. exact Hc.
  - split; auto. intros [n [l ->]]. eapply DM_not_ds; eauto.
  - intros d Hin. destruct (Hd d Hin) as [dims [m [-> _]]]. eexists; eexists; reflexivity.
Qed.
Lemma D_DataType t : D t -> DataType t.
Proof.
  intros [H|[ps [-> [dims [m [-> [H1 H2]]]]]]].
  - destruct t; try (left; apply DM_not_dim; exact H). exfalso; eapply DM_not_ds; eauto.
  - split; auto. exists dims, m. split; auto. split; [|apply DM_not_dim; auto].
    eapply Forall_impl; [|exact H1]. apply DDim_not_D.
Qed.
Lemma DDim_DataType t : DDim t -> DataType t.
Proof. intros [n Hn|]; right; [left; eauto|right; auto]. Qed.
Lemma D_WF t : D t -> WF t.
Proof.
  intros H u Hu. destruct (D_occurs u t Hu (or_introl H)) as [X|X]; [apply (D_facts _ _ _ X)|].
  destruct X; [exact H0|exact I].
Qed.
Lemma D_typeset t : D t -> NoTypeSet t.
Proof.
  intros H l n Hu. destruct (D_occurs _ t Hu (or_introl H)) as [X|X]; [|inversion X].
  apply D_DataType in X. destruct X as [[]|[[k [_ X]]|X]]; discriminate.
Qed.
Lemma D_names t fs n : D t -> Occurs (RecordT fs) t -> In n (map fst fs) -> PN n.
Proof.
  intros H Ho Hn. destruct (D_occurs _ t Ho (or_introl H)) as [[X|[ps [X _]]]|X]; [|discriminate|inversion X].
  eapply record_names; eauto.
Qed.
Lemma Reach_Occurs u t : Reach u t -> Occurs u t.
Proof.
  induction 1; [constructor|..]; (eapply Occurs_in; [|eassumption]); cbn [children]; simpl; auto.
Qed.
Lemma D_AllGood t : D t -> AllGood t.
Proof.
  intros H n ps Hr. apply Reach_Occurs in Hr.
  destruct (D_occurs _ t Hr (or_introl H)) as [[X|[ps' [X [dims [m [E [H1 H2]]]]]]]|X]; [exfalso; eapply DM_not_ds; eauto| |inversion X].
  injection X as -> <-. subst ps.
  assert (NE : forall o, ~ In (EllipsisT o) (dims ++ [m])).
  { intros o Hin. apply in_app_iff in Hin as [Hin|[->|[]]].
    - rewrite Forall_forall in H1. specialize (H1 _ Hin). inversion H1.
    - apply DM_not_dim in H2. exact H2. }
  split.
  - intros i j a b Ha. exfalso. eapply NE. eapply nth_error_In; eauto.
  - rewrite last_last. intros [o ->]. eapply NE. apply in_app_iff. right; left; reflexivity.
Qed.
Lemma DM_IsMeasure t : DM t -> IsMeasure t.
Proof.
  intro H. destruct (DM_facts _ _ _ H) as [H1 [H2 _]]. split; [|split; auto].
  - intros [n [l ->]]. discriminate.
  - intros o ->. apply DM_not_dim in H. exact H.
Qed.
Lemma D_IsMeasure t : D t -> IsMeasure t \/ IsDataShape t.
Proof. intros [H|[ps [-> _]]]; [left; apply DM_IsMeasure; auto|right; eexists; eexists; reflexivity]. Qed.
Lemma D_Lexable U t : (forall n, PN n -> PrintableName U n) -> D t -> Lexable U t.
Proof.
  intros HP [H|[ps [-> [dims [m [-> [H1 H2]]]]]]].
  - pose proof H as H0. destruct H as [c Hc Hl| | | | |u Hu Hl|f e He Hl|m Hm Ho|fs N NP Hf|ds Hd]; cbn [Lexable]; auto.
    + destruct (known_CType c Hc) as [n [i [a E]]]. subst c. exact Hc.
    + split; auto. left. apply DM_IsMeasure; auto.
    + intros n u Hin. split; [apply HP; rewrite Forall_forall in NP; apply NP; apply in_map_iff; exists (n, u); auto|].
      apply D_IsMeasure, Dl_D. exact (Hf n u Hin).
  - cbn [Lexable]. split; auto. exists dims, m. split; auto. split; [|apply DM_IsMeasure; auto].
    intros d Hd. rewrite Forall_forall in H1. destruct (H1 d Hd); [left; eauto|right; left; auto].
Qed.
Lemma D_Printable U t : (forall n, PN n -> PrintableName U n) -> D t -> Printable U t.
Proof.
  intros HP H. split; [apply D_WF; auto|]. intros u Hu.
  destruct (D_occurs _ t Hu (or_introl H)) as [X|X]; [apply D_Lexable; auto|destruct X; exact I].
Qed.
Lemma DM_shape t : DM t -> shape t = [].
Proof.
  intro H. destruct H as [c Hc Hl| | | | |u Hu Hl|f e He Hl|m Hm Ho|fs N NP Hf|ds Hd]; try reflexivity.
  - destruct (known_CType c Hc) as [n [i [a E]]]. subst c. reflexivity.
  - cbn [shape]. destruct Hm as [c Hc Hl| | | | |u Hu Hl|f e He Hl|m Hm Ho'|fs N NP Hf|ds Hd]; try reflexivity.
    + destruct (known_CType c Hc) as [n [i [a E]]]. subst c. reflexivity.
    + exfalso. eapply Ho; eauto.
Qed.
Lemma D_roundtrip E t : disc_ok E -> (forall n, PN n -> PrintableName (e_uni E) n) -> D t ->
  exists t', dshape E (py_str (e_uni E) t) = Ok t' /\ py_eq t' t = true /\ py_eq t t' = true.
Proof.
  intros HE HP H. pose proof (D_Printable _ _ HP H) as Pr. pose proof (D_AllGood _ H) as AG.
  destruct H as [H|[ps [-> H]]].
  - apply C10_bare; auto; [apply DM_IsMeasure; auto|apply DM_shape; auto].
  - apply C10_print_parse; auto. eexists; eexists; reflexivity.
Qed.
Lemma D_exact E ps : disc_ok E -> (forall n, PN n -> PrintableName (e_uni E) n) -> D (DataShapeT None ps) ->
  dshape E (py_str (e_uni E) (DataShapeT None ps)) = Ok (DataShapeT None ps).
Proof.
  intros HE HP H. apply C10_exact; auto.
  - eexists; eexists; reflexivity.
  - apply D_Printable; auto.
  - apply D_AllGood; auto.
  - intros n l Hu. destruct (D_occurs _ _ Hu (or_introl H)) as [X|X]; [|inversion X]. apply D_DataType in X. apply X.
  - intros l u Hu. destruct (D_occurs _ _ Hu (or_introl H)) as [X|X]; [|inversion X].
    apply D_DataType in X. destruct X as [[]|[[k [_ X]]|X]]; discriminate.
Qed.
End Names.

Definition All_ok (PN : str -> Prop) sc so (Hso : dates_ok so) v (HN : forall n, KeyOf n v -> PN n) : okR (D PN (fun _ => True)) (discover sc so v) :=
  discover_okR PN (fun _ => True) sc so (fun v => forall n, KeyOf n v -> PN n) (fun _ _ => I)
    (fun k l x H Hx n Hn => H n (KeyOf_seq n k l x Hx Hn))
    (fun k l n x H Hx => conj (H n (KeyOf_here n k l x Hx)) (fun m Hm => H m (KeyOf_map m k l n x Hx Hm)))
    (fun v Hv HN => atom_okR PN (fun _ => True) (fun _ _ => I) (fun _ => I) sc so Hso v Hv HN) v HN.
Theorem discover_finds sc so v : dates_ok so -> Finds v (discover sc so v).
Proof.
  intro Hso. pose proof (All_ok (fun n => KeyOf n v) sc so Hso v (fun n H => H)) as H.
  destruct (discover sc so v) as [t|e]; [|exact H]. cbn [okR] in H. split; [eapply D_WF; eauto|].
  split; [apply (D_facts _ _ _ H)|]. split.
  - intros u Hu. destruct (D_occurs _ _ _ Hu (or_introl H)) as [X|X]; [eapply D_DataType; eauto|apply DDim_DataType; auto].
  - intros fs n Ho Hn. apply (D_names _ _ _ _ H Ho Hn).
Qed.
Theorem discover_roundtrip sc so E v t : dates_ok so -> disc_ok E ->
  (forall n, KeyOf n v -> PrintableName (e_uni E) n) -> discover sc so v = Ok t ->
  exists t', dshape E (py_str (e_uni E) t) = Ok t' /\ py_eq t' t = true /\ py_eq t t' = true.
Proof.
  intros Hso HE HP H. pose proof (All_ok (fun n => KeyOf n v) sc so Hso v (fun n H => H)) as HD.
  rewrite H in HD. exact (D_roundtrip (fun n => KeyOf n v) E t HE HP HD).
Qed.
Theorem discover_roundtrip_exact sc so E v n ps : dates_ok so -> disc_ok E ->
  (forall n, KeyOf n v -> PrintableName (e_uni E) n) -> discover sc so v = Ok (DataShapeT n ps) ->
  dshape E (py_str (e_uni E) (DataShapeT n ps)) = Ok (DataShapeT n ps).
Proof.
  intros Hso HE HP H. pose proof (All_ok (fun n => KeyOf n v) sc so Hso v (fun n H => H)) as HD.
  rewrite H in HD. cbn [okR] in HD. assert (n = None) as -> by (apply D_DataType in HD; apply HD).
  exact (D_exact (fun n => KeyOf n v) E ps HE HP HD).
Qed.
Theorem full_env_ok U sc so : dates_ok so -> disc_ok (full_env U sc so).
Proof.
  intros Hso l. cbn [full_env e_disc]. pose proof (All_ok (fun _ => True) sc so Hso (DSeq KTuple (map lit_val l)) (fun n _ => I)) as H.
  destruct (discover _ _ _) as [t|e]; cbn [okR] in H.
  - split; [apply wf_WF; eapply D_WF; eauto|apply no_typeset_spec; eapply D_typeset; eauto].
  - destruct e; auto.
Qed.
