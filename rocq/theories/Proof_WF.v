(** The boolean invariants of Types.v are the stated ones. *)
From Verif Require Import Base Types Spec_WF.

Lemma not_Lone t : laundered t = true <-> ~ Lone t.
Proof.
  split.
  - intros H [n [x ->]]. discriminate.
  - intro H. destruct t; try reflexivity. destruct parameters as [|x [|y l]]; try reflexivity.
    exfalso. apply H. exists name, x. reflexivity.
Qed.
Lemma IsDataShape_b t : is_DataShape t = true <-> IsDataShape t.
Proof. split; [destruct t; try discriminate; intros _; eexists _, _; reflexivity|intros [n [l ->]]; reflexivity]. Qed.
Lemma may_be_measure_spec t : may_be_measure t = true <-> ~ DimensionClass t.
Proof.
  split; [intros H HD; destruct HD; discriminate|]. intro H. destruct t; try reflexivity; exfalso; apply H; constructor.
Qed.
Lemma may_be_dim_spec t : may_be_dim t = true <-> ~ MeasureClass t.
Proof.
  split; [intros H HD; destruct HD; discriminate|]. intro H. destruct t; try reflexivity; exfalso; apply H; constructor.
Qed.
Lemma upper_start_spec s : upper_start s = true <-> UpperStart s.
Proof.
  unfold upper_start, UpperStart. split.
  - destruct s as [|c r]; [discriminate|]. intro H. exists c, r. split; auto.
    apply orb_true_iff in H as [H|H]; [left|right]; [apply andb_true_iff in H as [H1 H2]|]; rewrite ?N.leb_le in *; auto.
  - intros [c [r [-> H]]]. apply orb_true_iff. destruct H as [[H1 H2]|H]; [left; apply andb_true_iff|right]; rewrite ?N.leb_le; auto.
Qed.

Lemma forallb_Forall' {A} f (l : list A) : forallb f l = true <-> (forall x, In x l -> f x = true).
Proof. apply forallb_forall. Qed.

(** one level *)
Lemma wf_step t : wf t = true <-> Inv t /\ (forall c, In c (children t) -> wf c = true).
Proof.
  destruct t; cbn [wf Inv children]; try (split; [intro; split; [exact I|intros ? []]|reflexivity]).
  - rewrite mem_str_In. split; [intro H; split; [exact H|intros ? []]|intros [H _]; exact H].
  - rewrite andb_true_iff, IsDataShape_b. split; [intros [H1 H2]; split; auto; intros c [<-|[]]; auto|intros [H1 H2]; split; auto; apply H2; left; auto].
  - rewrite mem_str_In. split; [intro H; split; [exact H|intros ? []]|intros [H _]; exact H].
  - rewrite Z.leb_le. split; [intro H; split; [exact H|intros ? []]|intros [H _]; exact H].
  - rewrite upper_start_spec. split; [intro H; split; [exact H|intros ? []]|intros [H _]; exact H].
  - destruct typevar.
    + rewrite upper_start_spec. split; [intro H; split; [exact H|intros ? []]|intros [H _]; exact H].
    + split; [intro; split; [exact I|intros ? []]|reflexivity].
  - rewrite !andb_true_iff, !forallb_forall, may_be_measure_spec.
    destruct (list_rev_case parameters) as [->|[l [x ->]]].
    { split; [intros [[[H _] _] _]; discriminate|]. intros [[d [m [H _]]] _]. destruct d; discriminate. }
    rewrite last_last, removelast_last. split.
    + intros [[[H1 H2] H3] H4]. split.
      * exists l, x. repeat split; auto; [intros d Hd; apply may_be_dim_spec; auto|].
        intros y Hy. specialize (H4 y Hy). apply andb_true_iff in H4 as [H4 _]. apply not_Lone; auto.
      * intros c Hc. specialize (H4 c Hc). apply andb_true_iff in H4 as [_ H4]; auto.
    + intros [[d [m [He [H1 [H2 H3]]]]] H4]. apply app_inj_tail in He as [-> ->].
      split; [split; [split; [destruct d; reflexivity|exact H1]|]|].
      * intros y Hy. apply may_be_dim_spec. auto.
      * intros y Hy. apply andb_true_iff. split; [apply not_Lone|]; auto.
  - rewrite andb_true_iff, not_Lone. split; [intros [H1 H2]; split; auto; intros c [<-|[]]; auto|intros [H1 H2]; split; auto; apply H2; left; auto].
  - rewrite andb_true_iff, forallb_forall. destruct parameters; [split; [intros []; discriminate|intros [[] _]; reflexivity]|].
    split; intros [H1 H2]; split; auto; discriminate.
  - rewrite !andb_true_iff, !not_Lone. split.
    + intros [[H1 H2] [H3 H4]]. split; auto. intros c [<-|[<-|[]]]; auto.
    + intros [[H1 H2] H3]. repeat split; auto; apply H3; simpl; auto.
  - rewrite andb_true_iff, nodup_str_NoDup, forallb_forall. split.
    + intros [H1 H2]. repeat split; auto; intros c Hc; apply in_map_iff in Hc as [f [<- Hf]];
        specialize (H2 f Hf); apply andb_true_iff in H2 as [H2 H3]; [apply not_Lone|]; auto.
    + intros [[H1 H2] H3]. split; auto. intros f Hf. apply andb_true_iff. split; [apply not_Lone; apply H2|apply H3]; apply in_map; auto.
  - split; [intro H; split; [exact I|intros c [<-|[]]; auto]|intros [_ H]; apply H; left; auto].
  - rewrite forallb_forall. split.
    + intro H. split; intros d Hd; specialize (H d Hd); apply andb_true_iff in H as [H1 H2]; [apply IsDataShape_b|]; auto.
    + intros [H1 H2] d Hd. apply andb_true_iff. split; [apply IsDataShape_b|]; auto.
  - rewrite forallb_forall. split; [intro H; split; auto|intros [_ H]; auto].
Qed.

Lemma children_ind (P : ty -> Prop) : (forall t, (forall c, In c (children t) -> P c) -> P t) -> forall t, P t.
Proof.
  intro H. induction t using ty_ind'; apply H; cbn [children]; intros x Hc; try contradiction;
    try (destruct Hc as [<-|[]]; assumption).
  - rewrite Forall_forall in H0; auto.
  - rewrite Forall_forall in H0; auto.
  - destruct Hc as [<-|[<-|[]]]; assumption.
  - rewrite Forall_forall in H0. apply in_map_iff in Hc as [f [<- Hf]]. auto.
  - rewrite Forall_forall in H0; auto.
  - rewrite Forall_forall in H0; auto.
Qed.

Lemma wf_WF t : wf t = true <-> WF t.
Proof.
  split.
  - induction t as [t IH] using children_ind. intro H. apply wf_step in H as [H1 H2].
    intros u Hu. destruct Hu as [|c t Hc Hu]; auto. apply (IH c Hc); auto.
  - induction t as [t IH] using children_ind. intro H. apply wf_step. split; [apply H; constructor|].
    intros c Hc. apply IH; auto. intros u Hu. apply H. eapply Occurs_in; eauto.
Qed.

Lemma no_typeset_step t : no_typeset t = true <-> is_TypeSet t = false /\ (forall c, In c (children t) -> no_typeset c = true).
Proof.
  destruct t; cbn [no_typeset is_TypeSet children]; try (split; [intro; split; [reflexivity|intros ? []]|reflexivity]);
   try (split; [intro H; split; [reflexivity|intros c [<-|[]]; auto]|intros [_ H]; apply H; left; reflexivity]);
   try (rewrite forallb_forall; split; [intro H; split; auto|intros [_ H]; auto]; fail).
  - rewrite andb_true_iff. split; [intros [H1 H2]; split; auto; intros c [<-|[<-|[]]]; auto|intros [_ H]; split; apply H; simpl; auto].
  - rewrite forallb_forall. split.
    + intro H. split; auto. intros c Hc. apply in_map_iff in Hc as [f [<- Hf]]. auto.
    + intros [_ H] f Hf. apply H. apply in_map; auto.
  - split; [discriminate|intros [H _]; discriminate].
Qed.
Lemma no_typeset_spec t : no_typeset t = true <-> NoTypeSet t.
Proof.
  split.
  - induction t as [t IH] using children_ind. intro H. apply no_typeset_step in H as [H1 H2].
    intros l n Hu. inversion Hu as [|c t' Hc Hu']; subst; [discriminate|]. apply (IH c Hc (H2 c Hc) l n Hu').
  - induction t as [t IH] using children_ind. intro H. apply no_typeset_step. split.
    + destruct t; try reflexivity. exfalso. apply (H order name). constructor.
    + intros c Hc. apply IH; auto. intros l n Hu. apply (H l n). eapply Occurs_in; eauto.
Qed.
