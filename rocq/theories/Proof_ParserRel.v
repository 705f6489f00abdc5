(** A relational (two-run) invariant of the parser: runs on streams with the same token
    kinds and values, over symbol tables that agree on good arguments, give the same
    result; error positions are related by [pr]; results satisfy the given predicates;
    and the recursion bound is never hit. Instances give termination, independence of
    blanks, well-formedness and error positions. *)
From Verif Require Import Base Types Lexer Printer Construct Parser.

Section Rel.
  Variable sym1 sym2 : symtab.
  Variable pr : nat -> nat -> Prop.        (* related error positions *)
  Variable Qds Qdt Qdim : ty -> Prop.      (* parsed datashapes, dtypes, dims *)
  Variable garg : targ -> Prop.            (* good constructor arguments *)
  Variable gval : tval -> Prop.            (* good values of INTEGER, STRING, BOOLEAN tokens *)

  Definition er (e1 e2 : exn) : Prop :=
    match e1 with
    | SyntaxErr p1 m => exists p2, e2 = SyntaxErr p2 m /\ pr p1 p2
    | OutOfFuel => False
    | _ => e1 = e2
    end.
  Definition RV {A} (Q : A -> Prop) (x y : res A) : Prop :=
    match x, y with
    | Ok a, Ok b => a = b /\ Q a
    | Raise e1, Raise e2 => er e1 e2
    | _, _ => False
    end.

  (** related streams *)
  Inductive strel : toks -> toks -> Prop :=
  | strel_end p q : pr p q -> strel [PEnd p] [PEnd q]
  | strel_err e1 e2 : er e1 e2 -> strel [PErr e1] [PErr e2]
  | strel_tok t1 t2 r1 r2 : tk_kind t1 = tk_kind t2 -> tk_val t1 = tk_val t2 ->
      (tk_kind t1 = KInt \/ tk_kind t1 = KStr \/ tk_kind t1 = KBool -> gval (tk_val t1)) ->
      pr (tk_start t1) (tk_start t2) -> strel r1 r2 -> strel (PTok t1 :: r1) (PTok t2 :: r2).
  Definition live (ts : toks) : Prop := match ts with PErr _ :: _ => False | _ => True end.
  Definition SR (a b : toks) : Prop := strel a b /\ live a.

  Definition Rres {A} (Q : A -> Prop) (L : nat) (x y : P A) : Prop :=
    match x, y with
    | Ok (o1, r1), Ok (o2, r2) =>
        o1 = o2 /\ (forall a, o1 = Some a -> Q a) /\ SR r1 r2 /\ (length r1 <= L)%nat
    | Raise e1, Raise e2 => er e1 e2
    | _, _ => False
    end.
  Definition prel {A} (Q : A -> Prop) (N : nat) (p1 p2 : toks -> P A) : Prop :=
    forall ts1 ts2, SR ts1 ts2 -> (length ts1 < N)%nat -> Rres Q (length ts1) (p1 ts1) (p2 ts2).

  Lemma Rres_mono {A} (Q : A -> Prop) L L' x y : (L <= L')%nat -> Rres Q L x y -> Rres Q L' x y.
  Proof. intros H. destruct x as [[o1 r1]|], y as [[o2 r2]|]; simpl; intuition lia. Qed.

  Lemma SR_kind a b : SR a b -> tok_kind a = tok_kind b.
  Proof. intros [H _]. destruct H; simpl; congruence. Qed.
  Lemma SR_kind_is k a b : SR a b -> kind_is k b = kind_is k a.
  Proof. intro H. unfold kind_is. rewrite (SR_kind a b H). reflexivity. Qed.
  Lemma SR_value a b : SR a b -> tok_value b = tok_value a.
  Proof. intros [H _]. destruct H; simpl; congruence. Qed.
  Lemma SR_gval a b k : SR a b -> tok_kind a = Some k -> k = KInt \/ k = KStr \/ k = KBool -> gval (tok_value a).
  Proof.
    intros [H _] Hk Hc. destruct H as [| |t1 t2 r1 r2 H1 H2 H3 H4 H5]; try discriminate. simpl in *.
    inversion Hk; subst. apply H3. exact Hc.
  Qed.
  Lemma SR_pos a b : SR a b -> pr (tok_pos a) (tok_pos b).
  Proof. intros [H L]. destruct H; simpl in *; auto. contradiction. Qed.
  Lemma SR_length a b : SR a b -> length b = length a.
  Proof. intros [H _]. induction H; simpl; auto. Qed.
  Lemma kind_is_Some k a : kind_is k a = true -> tok_kind a = Some k.
  Proof.
    unfold kind_is. destruct (tok_kind a) as [k'|]; [|discriminate]. intro H.
    apply internal_kind_dec_bl in H. congruence.
  Qed.

  Lemma advance_rel a b k : SR a b -> tok_kind a = Some k ->
    (exists r1 r2, advance a = Ok r1 /\ advance b = Ok r2 /\ SR r1 r2 /\ (length r1 < length a)%nat)
    \/ (exists e1 e2, advance a = Raise e1 /\ advance b = Raise e2 /\ er e1 e2).
  Proof.
    intros [H L] Hk. destruct H as [| |t1 t2 r1 r2 Hk' Hv Hg Hp Hr]; try discriminate.
    destruct Hr as [p q Hpq|e1 e2 He|t1' t2' r1' r2' H1 H2 H3 H4 H5].
    - left. do 2 eexists. repeat split; [constructor; auto|simpl; lia].
    - right. do 2 eexists. repeat split. exact He.
    - left. do 2 eexists. repeat split; [constructor; auto|simpl; lia].
  Qed.

  Lemma raise_rel {A} (Q : A -> Prop) L a b m : SR a b -> Rres Q L (raise_error a m) (raise_error b m).
  Proof. intro H. simpl. eexists. split; [reflexivity|]. apply SR_pos; auto. Qed.

  (** reduce both runs by one [advance] *)
  Ltac adv H k Hk :=
    let r1 := fresh "r" in let r2 := fresh "r'" in let E1 := fresh "E" in let E2 := fresh "E'" in
    let S := fresh "S" in let L := fresh "L" in
    destruct (advance_rel _ _ k H Hk) as [[r1 [r2 [E1 [E2 [S L]]]]]|[r1 [r2 [E1 [E2 S]]]]];
    rewrite E1, E2; cbn [bind]; [|exact S].

  Lemma hom_loop_rel {A} (Q : A -> Prop) N item1 item2 sep tr :
    prel Q N item1 item2 ->
    forall n m ts1 ts2 sv1 sv2 items L,
    SR ts1 ts2 -> SR sv1 sv2 -> (length ts1 < n)%nat -> (length ts1 < m)%nat -> (length ts1 < N)%nat ->
    (length ts1 <= L)%nat -> (length sv1 <= L)%nat ->
    Forall Q items ->
    Rres (Forall Q) L (hom_loop item1 n sep tr sv1 items ts1) (hom_loop item2 m sep tr sv2 items ts2).
  Proof.
    intro Hi. induction n as [|n IH]; intros m ts1 ts2 sv1 sv2 items L HS Hsv Hn Hm HN HL HL' HQ; [lia|].
    destruct m as [|m]; [lia|]. cbn [hom_loop].
    specialize (Hi ts1 ts2 HS HN). destruct (item1 ts1) as [[o1 r1]|e1], (item2 ts2) as [[o2 r2]|e2];
      cbn [Rres] in Hi; try contradiction; [|exact Hi].
    destruct Hi as [Ho [HQ1 [Hr Hl]]]. subst o2. cbn [bind].
    destruct o1 as [x|].
    - rewrite (SR_kind_is sep _ _ Hr). destruct (kind_is sep r1) eqn:Ek.
      + apply kind_is_Some in Ek. adv Hr sep Ek.
        eapply IH; eauto; try lia. apply Forall_app. split; auto.
      + cbn [Rres]. split; [reflexivity|]. split.
        * intros a Ha. inversion Ha; subst. apply Forall_app. split; auto.
        * split; [auto|lia].
    - destruct items as [|i items].
      + cbn [Rres]. split; [reflexivity|]. split; [discriminate|]. split; [auto|lia].
      + destruct tr.
        * cbn [Rres]. split; [reflexivity|]. split; [|split; [auto|lia]]. intros a Ha; inversion Ha; subst; auto.
        * apply raise_rel; auto.
  Qed.
  Lemma hom_list_rel {A} (Q : A -> Prop) N item1 item2 sep tr :
    prel Q N item1 item2 -> prel (Forall Q) N (hom_list item1 sep tr) (hom_list item2 sep tr).
  Proof.
    intros Hi ts1 ts2 HS HN. unfold hom_list. eapply hom_loop_rel; eauto.
    rewrite (SR_length _ _ HS). lia.
  Qed.

  (** hypotheses on the symbol tables and on the constructors *)
  Hypothesis Hconstr : forall n,
    match st_dtype_constr sym1 n, st_dtype_constr sym2 n with
    | Some c1, Some c2 => forall args kw, Forall garg args -> Forall (fun p => garg (snd p)) kw ->
        RV Qdt (c1 args kw) (c2 args kw)
    | None, None => True
    | _, _ => False
    end.
  Hypothesis Hdtype : forall n, st_dtype sym1 n = st_dtype sym2 n /\
    forall t, st_dtype sym1 n = Some t -> Qdt t.
  Hypothesis Hdim : forall n, st_dim sym1 n = st_dim sym2 n /\
    forall t, st_dim sym1 n = Some t -> Qdim t.
  Hypothesis Hdconstr : forall n,
    match st_dim_constr sym1 n, st_dim_constr sym2 n with
    | Some c1, Some c2 => forall v, RV Qdim (c1 (val_targ v)) (c2 (val_targ v))
    | None, None => True
    | _, _ => False
    end.
  Hypothesis Hmk1 : forall t, Qdt t -> RV Qds (mk_ds [t]) (mk_ds [t]).
  Hypothesis Hmk2 : forall d t, Qdim d -> Qds t -> RV Qds (mk_ds (d :: ds_params t)) (mk_ds (d :: ds_params t)).
  Hypothesis Hg_ds : forall t, Qds t -> garg (ADs t).
  Hypothesis Hg_val : forall v, gval v -> garg (val_targ v).
  Hypothesis Htypevar :
    match st_dtype_constr sym1 $"typevar", st_dtype_constr sym2 $"typevar" with
    | Some c1, Some c2 => forall v, RV Qdt (c1 [val_targ v] []) (c2 [val_targ v] [])
    | None, None => True
    | _, _ => False
    end.
  Hypothesis Hstruct :
    match st_dtype_constr sym1 $"struct", st_dtype_constr sym2 $"struct" with
    | Some c1, Some c2 => forall names tys, Forall Qds tys ->
        RV Qdt (c1 [AList (map AStr names); AList (map ADs tys)] [])
                  (c2 [AList (map AStr names); AList (map ADs tys)] [])
    | None, None => True
    | _, _ => False
    end.
  Hypothesis Hg_list : forall l, Forall garg l -> garg (AList l).

  Variable rec1 rec2 : toks -> P ty.
  Variable N : nat.
  Hypothesis Hrec : prel Qds N rec1 rec2.

  Ltac rcases H :=
    let o1 := fresh "o" in let r1 := fresh "r" in let e1 := fresh "e" in
    let o2 := fresh "o" in let r2 := fresh "r" in let e2 := fresh "e" in
    match type of H with Rres _ _ ?x ?y =>
      destruct x as [[o1 r1]|e1], y as [[o2 r2]|e2]; cbn [Rres] in H; try contradiction; [|exact H]
    end.

  Lemma rec_targ_rel : prel garg N (rec_targ rec1) (rec_targ rec2).
  Proof.
    intros ts1 ts2 HS HN. unfold rec_targ. pose proof (Hrec ts1 ts2 HS HN) as H. rcases H.
    destruct H as [Ho [HQ [Hr Hl]]]. subst. cbn [bind Rres]. split; [reflexivity|].
    split; [|split; auto]. intros a Ha. destruct o0; inversion Ha; subst. auto.
  Qed.
  Lemma tokval_rel k : k = KInt \/ k = KStr \/ k = KBool -> prel garg N (parse_tokval k val_targ) (parse_tokval k val_targ).
  Proof.
    intros Hkk ts1 ts2 HS HN. unfold parse_tokval. rewrite (SR_kind_is k _ _ HS).
    destruct (kind_is k ts1) eqn:Ek.
    - apply kind_is_Some in Ek. pose proof (SR_gval _ _ _ HS Ek Hkk) as Hg.
      rewrite (SR_value _ _ HS). adv HS k Ek. cbn [Rres].
      split; [reflexivity|]. split; [intros a Ha; inversion Ha; subst; auto|]. split; [auto|lia].
    - cbn [Rres]. split; [reflexivity|]. split; [discriminate|]. split; [auto|lia].
  Qed.

  Lemma list_try_rel k (Hkk : k = KInt \/ k = KStr \/ k = KBool) (v : option (list targ)) (ts1 ts2 : toks) L :
    SR ts1 ts2 -> (length ts1 < N)%nat -> (length ts1 <= L)%nat -> (forall l, v = Some l -> Forall garg l) ->
    Rres (Forall garg) L
      (match v with Some _ => Ok (v, ts1) | None => hom_list (parse_tokval k val_targ) KComma (Complain (another k)) ts1 end)
      (match v with Some _ => Ok (v, ts2) | None => hom_list (parse_tokval k val_targ) KComma (Complain (another k)) ts2 end).
  Proof.
    intros HS HN HL Hv. destruct v as [l|].
    - cbn [Rres]. split; [reflexivity|]. split; [auto|]. split; auto.
    - eapply Rres_mono; [exact HL|]. eapply hom_list_rel; eauto. apply tokval_rel; auto.
  Qed.

  Lemma type_arg_rel : prel garg N (parse_type_arg rec1) (parse_type_arg rec2).
  Proof.
    intros ts1 ts2 HS HN. unfold parse_type_arg. pose proof (Hrec ts1 ts2 HS HN) as H. rcases H.
    destruct H as [Ho [HQ [Hr Hl]]]. subst. cbn [bind]. destruct o0 as [t|].
    { cbn [Rres]. split; [reflexivity|]. split; [|split; auto]. intros a Ha; inversion Ha; subst; auto. }
    rewrite !(SR_kind_is _ _ _ Hr).
    destruct (kind_is KInt r || kind_is KStr r || kind_is KBool r) eqn:Ek.
    { assert (exists k, tok_kind r = Some k /\ (k = KInt \/ k = KStr \/ k = KBool)) as [k [Hk Hkk]].
      { apply orb_true_iff in Ek as [Ek|Ek]; [apply orb_true_iff in Ek as [Ek|Ek]|]; apply kind_is_Some in Ek; eauto. }
      pose proof (SR_gval _ _ _ Hr Hk Hkk) as Hg. rewrite (SR_value _ _ Hr). adv Hr k Hk. cbn [Rres].
      split; [reflexivity|]. split; [intros a Ha; inversion Ha; subst; auto|]. split; [auto|lia]. }
    destruct (kind_is KLBk r) eqn:Eb.
    2:{ cbn [Rres]. split; [reflexivity|]. split; [discriminate|]. split; auto. }
    apply kind_is_Some in Eb. adv Hr KLBk Eb. rename r1 into q1, r' into q2, S into Sq, L into Lq.
    pose proof (hom_list_rel garg N _ _ KComma (Complain MAnotherDatashape) rec_targ_rel q1 q2 Sq ltac:(lia)) as H1. rcases H1.
    destruct H1 as [Ho1 [HQ1 [Hr1 Hl1]]]. subst. cbn [bind].
    match goal with |- Rres _ _ (bind ?x _) (bind ?y _) =>
      assert (H2 : Rres (Forall garg) (length q1) x y) by (apply list_try_rel; auto; lia) end.
    rcases H2. destruct H2 as [Ho2 [HQ2 [Hr2 Hl2]]]. subst. cbn [bind].
    match goal with |- Rres _ _ (bind ?x _) (bind ?y _) =>
      assert (H3 : Rres (Forall garg) (length q1) x y) by (apply list_try_rel; auto; lia) end.
    rcases H3. destruct H3 as [Ho3 [HQ3 [Hr3 Hl3]]]. subst. cbn [bind].
    match goal with |- Rres _ _ (bind ?x _) (bind ?y _) =>
      assert (H4 : Rres (Forall garg) (length q1) x y) by (apply list_try_rel; auto; lia) end.
    rcases H4. destruct H4 as [Ho4 [HQ4 [Hr4 Hl4]]]. subst. cbn [bind].
    match goal with HH : SR ?a ?b |- Rres _ _ (if kind_is KRBk ?a then _ else _) _ =>
      rename HH into Hfin; rewrite (SR_kind_is KRBk _ _ Hfin); destruct (kind_is KRBk a) eqn:Er end.
    - apply kind_is_Some in Er. adv Hfin KRBk Er. cbn [Rres].
      split; [reflexivity|]. split; [|split; [auto|lia]].
      intros a Ha; inversion Ha; subst. apply Hg_list. 
      match goal with |- Forall _ (match ?v with _ => _ end) => destruct v; auto end.
    - apply raise_rel; auto.
  Qed.

  Lemma type_kwarg_rel : prel (fun p => garg (snd p)) N (parse_type_kwarg rec1) (parse_type_kwarg rec2).
  Proof.
    intros ts1 ts2 HS HN. unfold parse_type_kwarg. rewrite (SR_kind_is _ _ _ HS), (SR_value _ _ HS).
    destruct (kind_is KLower ts1) eqn:Ek.
    2:{ cbn [Rres]. split; [reflexivity|]. split; [discriminate|]. split; auto. }
    apply kind_is_Some in Ek. adv HS KLower Ek. rewrite (SR_kind_is KEq _ _ S).
    destruct (kind_is KEq r) eqn:Ee.
    2:{ cbn [Rres]. split; [reflexivity|]. split; [discriminate|]. split; auto. }
    apply kind_is_Some in Ee. adv S KEq Ee.
    match goal with HH : SR ?a ?b |- Rres _ _ (bind (parse_type_arg _ ?a) _) _ =>
      pose proof (type_arg_rel a b HH ltac:(lia)) as H1 end.
    rcases H1. destruct H1 as [Ho1 [HQ1 [Hr1 Hl1]]]. subst. cbn [bind].
    match goal with |- context [match ?o with Some _ => _ | None => _ end] => destruct o as [x|] end.
    - cbn [Rres]. split; [reflexivity|]. split; [intros a Ha; inversion Ha; subst; simpl; auto|]. split; [auto|lia].
    - apply raise_rel; auto.
  Qed.

  Lemma dict_set_Forall (Q : targ -> Prop) k v d :
    Q v -> Forall (fun p : str * targ => Q (snd p)) d -> Forall (fun p => Q (snd p)) (dict_set k v d).
  Proof.
    intros Hv H. induction H as [|[k' v'] d Hd H IH]; cbn [dict_set]; [repeat constructor; auto|].
    destruct (str_eqb k k'); constructor; auto.
  Qed.
  Lemma dict_of_Forall (Q : targ -> Prop) l :
    Forall (fun p : str * targ => Q (snd p)) l -> Forall (fun p => Q (snd p)) (dict_of l).
  Proof.
    intro H. unfold dict_of. assert (G : forall d, Forall (fun p : str * targ => Q (snd p)) d ->
      Forall (fun p => Q (snd p)) (fold_left (fun d p => dict_set (fst p) (snd p) d) l d)).
    { induction H as [|p l Hp H IH]; intros d Hd; cbn [fold_left]; auto. apply IH. apply dict_set_Forall; auto. }
    apply G. constructor.
  Qed.

  Definition Rargs (L : nat) (x y : res (list targ * list (str * targ) * toks)) : Prop :=
    match x, y with
    | Ok (a1, k1, r1), Ok (a2, k2, r2) =>
        a1 = a2 /\ k1 = k2 /\ Forall garg a1 /\ Forall (fun p => garg (snd p)) k1 /\ SR r1 r2 /\ (length r1 <= L)%nat
    | Raise e1, Raise e2 => er e1 e2
    | _, _ => False
    end.

  Lemma arg_loop_rel : forall n m ts1 ts2 args L,
    SR ts1 ts2 -> (length ts1 < n)%nat -> (length ts1 < m)%nat -> (length ts1 < N)%nat -> (length ts1 <= L)%nat ->
    Forall garg args ->
    Rargs L (arg_loop rec1 n args ts1) (arg_loop rec2 m args ts2).
  Proof.
    induction n as [|n IH]; intros m ts1 ts2 args L HS Hn Hm HN HL Ha; [lia|].
    destruct m as [|m]; [lia|]. cbn [arg_loop].
    pose proof (type_arg_rel ts1 ts2 HS HN) as H1. rcases H1.
    destruct H1 as [Ho1 [HQ1 [Hr1 Hl1]]]. subst. cbn [bind].
    match goal with |- context [match ?o with Some _ => _ | None => _ end] => destruct o as [x|] end.
    - rewrite (SR_kind_is KComma _ _ Hr1). destruct (kind_is KComma r) eqn:Ec.
      + apply kind_is_Some in Ec. adv Hr1 KComma Ec. eapply IH; eauto; try lia.
        apply Forall_app; split; auto.
      + cbn [Rargs]. repeat (split; [reflexivity|]). split; [apply Forall_app; split; auto|].
        split; [constructor|]. split; [auto|lia].
    - match goal with HH : SR ?a ?b |- Rargs _ (bind (hom_list _ _ _ ?a) _) _ =>
        pose proof (hom_list_rel _ N _ _ KComma (Complain MKeyword) type_kwarg_rel a b HH ltac:(lia)) as H2 end.
      match type of H2 with Rres _ _ ?x ?y =>
        destruct x as [[kw1 q1]|e1], y as [[kw2 q2]|e2]; cbn [Rres] in H2; try contradiction; [|exact H2] end.
      destruct H2 as [Ho2 [HQ2 [Hr2 Hl2]]]. subst. cbn [bind Rargs]. repeat (split; [reflexivity|]).
      split; auto. split; [|split; [auto|lia]].
      destruct kw2; [apply dict_of_Forall; auto|constructor].
  Qed.
  Lemma arg_list_rel ts1 ts2 : SR ts1 ts2 -> (length ts1 < N)%nat ->
    Rargs (length ts1) (parse_type_arg_list rec1 ts1) (parse_type_arg_list rec2 ts2).
  Proof.
    intros HS HN. unfold parse_type_arg_list. apply arg_loop_rel; auto; try lia; [rewrite (SR_length _ _ HS); lia].
  Qed.

  Lemma sugar_rel {A B} (f1 f2 : str -> option A) (G : A -> A -> Prop) n w a b L (Q : B -> Prop) k1 k2 :
    (match f1 n, f2 n with Some c1, Some c2 => G c1 c2 | None, None => True | _, _ => False end) ->
    SR a b -> (forall c1 c2, G c1 c2 -> Rres Q L (k1 c1) (k2 c2)) ->
    Rres Q L (let! c := sugar f1 n w a in k1 c) (let! c := sugar f2 n w b in k2 c).
  Proof.
    intros H HS Hk. unfold sugar. destruct (f1 n) as [c1|], (f2 n) as [c2|]; try contradiction; cbn [bind].
    - apply Hk; auto.
    - apply raise_rel; auto.
  Qed.
  Lemma RV_bind {B} (Q : B -> Prop) (Qv : ty -> Prop) L x y (k1 k2 : ty -> P B) :
    RV Qv x y -> (forall t, Qv t -> Rres Q L (k1 t) (k2 t)) ->
    Rres Q L (let! t := x in k1 t) (let! t := y in k2 t).
  Proof.
    intros H Hk. destruct x, y; simpl in H; try contradiction; cbn [bind]; [|exact H].
    destruct H as [<- H]. auto.
  Qed.

  Lemma struct_field_rel : prel (fun p => Qds (snd p)) N
     (parse_struct_field rec1) (parse_struct_field rec2).
  Proof.
    intros ts1 ts2 HS HN. unfold parse_struct_field. rewrite !(SR_kind_is _ _ _ HS), (SR_value _ _ HS).
    destruct (kind_is KLower ts1 || kind_is KUpper ts1 || kind_is KOther ts1 || kind_is KStr ts1) eqn:Ek.
    2:{ cbn [Rres]. split; [reflexivity|]. split; [discriminate|]. split; auto. }
    assert (exists k, tok_kind ts1 = Some k) as [k Hk].
    { repeat rewrite orb_true_iff in Ek. destruct Ek as [[[Ek|Ek]|Ek]|Ek]; apply kind_is_Some in Ek; eauto. }
    adv HS k Hk. rewrite (SR_kind_is KColon _ _ S). destruct (kind_is KColon r) eqn:Ec; [|apply raise_rel; auto].
    apply kind_is_Some in Ec. adv S KColon Ec.
    match goal with HH : SR ?a ?b |- Rres _ _ (bind (rec1 ?a) _) _ => pose proof (Hrec a b HH ltac:(lia)) as H1 end.
    rcases H1. destruct H1 as [Ho1 [HQ1 [Hr1 Hl1]]]. subst. cbn [bind].
    match goal with |- context [match ?o with Some _ => _ | None => _ end] => destruct o as [x|] end.
    - cbn [Rres]. split; [reflexivity|]. split; [|split; [auto|lia]].
      intros a Ha; inversion Ha; subst. simpl. auto.
    - apply raise_rel; auto.
  Qed.

  Lemma struct_type_rel ts1 ts2 : SR ts1 ts2 -> (length ts1 <= N)%nat -> kind_is KLBc ts1 = true ->
    Rres Qdt (length ts1) (parse_struct_type sym1 rec1 ts1) (parse_struct_type sym2 rec2 ts2).
  Proof.
    intros HS HN Ek. unfold parse_struct_type. apply kind_is_Some in Ek. adv HS KLBc Ek.
    match goal with HH : SR ?a ?b |- Rres _ _ (bind (hom_list _ _ _ ?a) _) _ =>
      pose proof (hom_list_rel _ N _ _ KComma Trailing struct_field_rel a b HH ltac:(lia)) as H1 end.
    match type of H1 with Rres _ _ ?x ?y =>
      destruct x as [[o1 u1]|e1], y as [[o2 u2]|e2]; cbn [Rres] in H1; try contradiction; [|exact H1] end. destruct H1 as [Ho1 [HQ1 [Hr1 Hl1]]]. subst. cbn [bind].
    match goal with HH : SR ?a ?b |- Rres _ _ (if kind_is KRBc ?a then _ else _) _ =>
      rewrite (SR_kind_is KRBc _ _ HH); destruct (kind_is KRBc a) eqn:Er; [|apply raise_rel; auto] end.
    apply kind_is_Some in Er. adv Hr1 KRBc Er.
    eapply sugar_rel; [apply Hstruct|auto|]. intros c1 c2 Hc.
    eapply RV_bind with (Qv := Qdt).
    - assert (HF : Forall Qds (map snd (opt_list o2))).
      { apply Forall_map. destruct o2 as [l|]; [|constructor]. exact (HQ1 l eq_refl). }
      specialize (Hc (map fst (opt_list o2)) _ HF). rewrite !map_map in Hc. exact Hc.
    - intros t Ht. cbn [Rres]. split; [reflexivity|]. split; [intros a Ha; inversion Ha; subst; auto|]. split; [auto|lia].
  Qed.

  Lemma funcproto_rel ts1 ts2 : SR ts1 ts2 -> (length ts1 <= N)%nat -> kind_is KLP ts1 = true ->
    Rres Qdt (length ts1) (parse_funcproto_or_tuple sym1 rec1 ts1) (parse_funcproto_or_tuple sym2 rec2 ts2).
  Proof.
    intros HS HN Ek. unfold parse_funcproto_or_tuple. apply kind_is_Some in Ek. adv HS KLP Ek.
    match goal with HH : SR ?a ?b |- Rres _ _ (bind (hom_list _ _ _ ?a) _) _ =>
      pose proof (hom_list_rel _ N _ _ KComma Trailing Hrec a b HH ltac:(lia)) as H1 end.
    match type of H1 with Rres _ _ ?x ?y =>
      destruct x as [[o1 u1]|e1], y as [[o2 u2]|e2]; cbn [Rres] in H1; try contradiction; [|exact H1] end. destruct H1 as [Ho1 [HQ1 [Hr1 Hl1]]]. subst. cbn [bind].
    match goal with HH : SR ?a ?b |- Rres _ _ (if kind_is KRP ?a then _ else _) _ =>
      rewrite (SR_kind_is KRP _ _ HH); destruct (kind_is KRP a) eqn:Er; [|apply raise_rel; auto] end.
    apply kind_is_Some in Er. adv Hr1 KRP Er.
    assert (Ga : garg (AList (map ADs (opt_list o2)))).
    { apply Hg_list. apply Forall_map. destruct o2 as [l|]; [|constructor]. specialize (HQ1 l eq_refl).
      eapply Forall_impl; [|exact HQ1]. auto. }
    match goal with HH : SR ?a ?b |- Rres _ _ (if kind_is KArrow ?a then _ else _) _ =>
      rewrite (SR_kind_is KArrow _ _ HH); destruct (kind_is KArrow a) eqn:Ea end.
    - apply kind_is_Some in Ea.
      match goal with HH : SR ?a ?b |- Rres _ _ (bind (advance ?a) _) _ => rename HH into Sa; adv Sa KArrow Ea end.
      match goal with HH : SR ?a ?b |- Rres _ _ (bind (rec1 ?a) _) _ => pose proof (Hrec a b HH ltac:(lia)) as H2 end.
      match type of H2 with Rres _ _ ?x ?y =>
        destruct x as [[ret1 q1]|e1], y as [[ret2 q2]|e2]; cbn [Rres] in H2; try contradiction; [|exact H2] end.
      destruct H2 as [Ho2 [HQ2 [Hr2 Hl2]]]. subst. cbn [bind].
      destruct ret2 as [rt|]; [|apply raise_rel; auto].
      eapply sugar_rel; [apply Hconstr|auto|]. intros c1 c2 Hc.
      eapply RV_bind with (Qv := Qdt).
      + apply Hc; constructor; auto.
      + intros t Ht. cbn [Rres]. split; [reflexivity|]. split; [intros a Ha; inversion Ha; subst; auto|]. split; [auto|lia].
    - eapply sugar_rel; [apply Hconstr|auto|]. intros c1 c2 Hc.
      eapply RV_bind with (Qv := Qdt).
      + apply Hc; constructor; auto.
      + intros t Ht. cbn [Rres]. split; [reflexivity|]. split; [intros a Ha; inversion Ha; subst; auto|]. split; [auto|lia].
  Qed.

  Ltac none HS := cbn [Rres]; split; [reflexivity|]; split; [discriminate|]; split; [exact HS|lia].

  Lemma dtype_rel ts1 ts2 : SR ts1 ts2 -> (length ts1 <= N)%nat ->
    Rres Qdt (length ts1) (parse_dtype sym1 rec1 ts1) (parse_dtype sym2 rec2 ts2).
  Proof.
    intros HS HN. unfold parse_dtype. rewrite <- (SR_kind _ _ HS), (SR_value _ _ HS).
    destruct (tok_kind ts1) as [k|] eqn:Ek; [|none HS].
    destruct k; try solve [none HS].
    - (* lower *) adv HS KLower Ek. rewrite (SR_kind_is KLBk _ _ S). destruct (kind_is KLBk r) eqn:Eb.
      + pose proof (Hconstr (vstr (tok_value ts1))) as Hc.
        destruct (st_dtype_constr sym1 (vstr (tok_value ts1))) as [c1|],
                 (st_dtype_constr sym2 (vstr (tok_value ts1))) as [c2|]; try contradiction; [|none HS].
        apply kind_is_Some in Eb. adv S KLBk Eb.
        match goal with HH : SR ?a ?b |- Rres _ _ (bind (parse_type_arg_list _ ?a) _) _ =>
          pose proof (arg_list_rel a b HH ltac:(lia)) as H2 end.
        match type of H2 with Rargs _ ?x ?y =>
          destruct x as [[[a1 k1] q1]|e1], y as [[[a2 k2] q2]|e2]; cbn [Rargs] in H2; try contradiction; [|exact H2] end.
        destruct H2 as [Ea [Ek2 [Ga [Gk [Sq Lq]]]]]. subst. cbn [bind].
        rewrite (SR_kind_is KRBk _ _ Sq). destruct (kind_is KRBk q1) eqn:Er; [|apply raise_rel; auto].
        apply kind_is_Some in Er.
        assert (G : Rres Qdt (length ts1)
          (let! ts4 := advance q1 in let! t := c1 a2 k2 in Ok (Some t, ts4))
          (let! ts4 := advance q2 in let! t := c2 a2 k2 in Ok (Some t, ts4))).
        { adv Sq KRBk Er. eapply RV_bind with (Qv := Qdt); [apply Hc; auto|].
          intros t Ht. cbn [Rres]. split; [reflexivity|]. split; [intros a Ha; inversion Ha; subst; auto|]. split; [auto|lia]. }
        destruct a2, k2; [apply raise_rel; auto|exact G|exact G|exact G].
      + destruct (Hdtype (vstr (tok_value ts1))) as [He Hq]. rewrite <- He.
        destruct (st_dtype sym1 (vstr (tok_value ts1))) as [t|]; [|none HS].
        cbn [Rres]. split; [reflexivity|]. split; [intros a Ha; inversion Ha; subst; auto|]. split; [auto|lia].
    - (* upper *) adv HS KUpper Ek.
      eapply sugar_rel; [apply Htypevar|auto|]. intros c1 c2 Hc.
      eapply RV_bind with (Qv := Qdt); [apply Hc|].
      intros t Ht. cbn [Rres]. split; [reflexivity|]. split; [intros a Ha; inversion Ha; subst; auto|]. split; [auto|lia].
    - apply struct_type_rel; auto. unfold kind_is. rewrite Ek. reflexivity.
    - apply funcproto_rel; auto. unfold kind_is. rewrite Ek. reflexivity.
  Qed.

  Lemma dim_rel ts1 ts2 : SR ts1 ts2 -> (length ts1 <= N)%nat ->
    Rres Qdim (length ts1) (parse_dim sym1 rec1 ts1) (parse_dim sym2 rec2 ts2).
  Proof.
    intros HS HN. unfold parse_dim. rewrite <- (SR_kind _ _ HS), (SR_value _ _ HS).
    destruct (tok_kind ts1) as [k|] eqn:Ek; [|none HS].
    destruct k; try solve [none HS].
    - (* lower *) adv HS KLower Ek. rewrite (SR_kind_is KLBk _ _ S). destruct (kind_is KLBk r) eqn:Eb.
      + pose proof (Hdconstr (vstr (tok_value ts1))) as Hc.
        destruct (st_dim_constr sym1 (vstr (tok_value ts1))) as [c1|],
                 (st_dim_constr sym2 (vstr (tok_value ts1))) as [c2|]; try contradiction; [|none HS].
        apply kind_is_Some in Eb. adv S KLBk Eb.
        match goal with HH : SR ?a ?b |- Rres _ _ (bind (parse_type_arg_list _ ?a) _) _ =>
          pose proof (arg_list_rel a b HH ltac:(lia)) as H2 end.
        match type of H2 with Rargs _ ?x ?y =>
          destruct x as [[[a1 k1] q1]|e1], y as [[[a2 k2] q2]|e2]; cbn [Rargs] in H2; try contradiction; [|exact H2] end.
        destruct H2 as [Ea [Ek2 [Ga [Gk [Sq Lq]]]]]. subst. cbn [bind].
        rewrite (SR_kind_is KRBk _ _ Sq). destruct (kind_is KRBk q1) eqn:Er; [|apply raise_rel; auto].
        apply kind_is_Some in Er. adv Sq KRBk Er. reflexivity.
      + destruct (Hdim (vstr (tok_value ts1))) as [He Hq]. rewrite <- He.
        destruct (st_dim sym1 (vstr (tok_value ts1))) as [t|]; [|none HS].
        cbn [Rres]. split; [reflexivity|]. split; [intros a Ha; inversion Ha; subst; auto|]. split; [auto|lia].
    - (* upper *) adv HS KUpper Ek. rewrite !(SR_kind_is _ _ _ S).
      destruct (kind_is KEll r) eqn:Ee.
      + apply kind_is_Some in Ee. adv S KEll Ee.
        eapply sugar_rel; [apply Hdconstr|auto|]. intros c1 c2 Hc.
        eapply RV_bind with (Qv := Qdim); [apply Hc|].
        intros t Ht. cbn [Rres]. split; [reflexivity|]. split; [intros a Ha; inversion Ha; subst; auto|]. split; [auto|lia].
      + destruct (kind_is KAst r) eqn:Ea; [|none HS].
        eapply sugar_rel; [apply Hdconstr|auto|]. intros c1 c2 Hc.
        eapply RV_bind with (Qv := Qdim); [apply Hc|].
        intros t Ht. cbn [Rres]. split; [reflexivity|]. split; [intros a Ha; inversion Ha; subst; auto|]. split; [auto|lia].
    - (* ellipsis *) adv HS KEll Ek. destruct (Hdim $"ellipsis") as [He Hq].
      eapply sugar_rel with (G := fun a b => a = b /\ Qdim a).
      + rewrite <- He. destruct (st_dim sym1 $"ellipsis"); auto.
      + auto.
      + intros c1 c2 [<- Hc]. cbn [Rres]. split; [reflexivity|].
        split; [intros a Ha; inversion Ha; subst; auto|]. split; [auto|lia].
    - (* int *) adv HS KInt Ek. rewrite !(SR_kind_is _ _ _ S).
      destruct (kind_is KAst r) eqn:Ea; [|none HS].
      eapply sugar_rel; [apply Hdconstr|auto|]. intros c1 c2 Hc.
      eapply RV_bind with (Qv := Qdim); [apply Hc|].
      intros t Ht. cbn [Rres]. split; [reflexivity|]. split; [intros a Ha; inversion Ha; subst; auto|]. split; [auto|lia].
  Qed.

  Lemma nooption_rel ts1 ts2 : SR ts1 ts2 -> (length ts1 <= N)%nat ->
    Rres Qds (length ts1) (parse_nooption sym1 rec1 ts1) (parse_nooption sym2 rec2 ts2).
  Proof.
    intros HS HN. unfold parse_nooption. pose proof (dim_rel ts1 ts2 HS HN) as H1.
    match type of H1 with Rres _ _ ?x ?y =>
        destruct x as [[d1 q1]|e1], y as [[d2 q2]|e2]; cbn [Rres] in H1; try contradiction; [|exact H1] end.
    destruct H1 as [Ho [HQ [Sq Lq]]]. subst. cbn [bind].
    assert (Hcont : Rres Qds (length ts1)
      (let! (dt, ts0) := parse_dtype sym1 rec1 q1 in
       match dt with Some t => let! ds := mk_ds [t] in Ok (Some ds, ts0) | None => Ok (None, ts0) end)
      (let! (dt, ts0) := parse_dtype sym2 rec2 q2 in
       match dt with Some t => let! ds := mk_ds [t] in Ok (Some ds, ts0) | None => Ok (None, ts0) end)).
    { pose proof (dtype_rel q1 q2 Sq ltac:(lia)) as H2.
      match type of H2 with Rres _ _ ?x ?y =>
        destruct x as [[dt1 p1]|e1], y as [[dt2 p2]|e2]; cbn [Rres] in H2; try contradiction; [|exact H2] end.
      destruct H2 as [Ho2 [HQ2 [Sp Lp]]]. subst. cbn [bind]. destruct dt2 as [t|].
      - eapply RV_bind with (Qv := Qds); [apply Hmk1; auto|]. intros t' Ht'.
        cbn [Rres]. split; [reflexivity|]. split; [intros a Ha; inversion Ha; subst; auto|]. split; [auto|lia].
      - none Sp. }
    destruct d2 as [d|]; [|exact Hcont].
    rewrite (SR_kind_is KAst _ _ Sq). destruct (kind_is KAst q1) eqn:Ea; [|exact Hcont].
    clear Hcont. apply kind_is_Some in Ea. adv Sq KAst Ea.
    match goal with HH : SR ?a ?b |- Rres _ _ (bind (rec1 ?a) _) _ =>
      pose proof (Hrec a b HH ltac:(lia)) as H2; rename HH into Sr end.
    match type of H2 with Rres _ _ ?x ?y =>
        destruct x as [[dt1 p1]|e1], y as [[dt2 p2]|e2]; cbn [Rres] in H2; try contradiction; [|exact H2] end.
    destruct H2 as [Ho2 [HQ2 [Sp Lp]]]. subst. cbn [bind]. destruct dt2 as [t|]; [|apply raise_rel; auto].
    eapply RV_bind with (Qv := Qds); [apply Hmk2; auto|]. intros t' Ht'.
    cbn [Rres]. split; [reflexivity|]. split; [intros a Ha; inversion Ha; subst; auto|]. split; [auto|lia].
  Qed.

  Lemma datashape_step_rel ts1 ts2 : SR ts1 ts2 -> (length ts1 <= N)%nat ->
    Rres Qds (length ts1) (parse_datashape_step sym1 rec1 ts1) (parse_datashape_step sym2 rec2 ts2).
  Proof.
    intros HS HN. unfold parse_datashape_step. rewrite (SR_kind_is _ _ _ HS).
    destruct (kind_is KQ ts1) eqn:Eq; [|apply nooption_rel; auto].
    apply kind_is_Some in Eq. adv HS KQ Eq.
    pose proof (nooption_rel r r' S ltac:(lia)) as H2.
    match type of H2 with Rres _ _ ?x ?y =>
        destruct x as [[dt1 p1]|e1], y as [[dt2 p2]|e2]; cbn [Rres] in H2; try contradiction; [|exact H2] end.
    destruct H2 as [Ho2 [HQ2 [Sp Lp]]]. subst. cbn [bind]. destruct dt2 as [t|]; [|none Sp].
    eapply sugar_rel; [apply Hconstr|auto|]. intros c1 c2 Hc.
    eapply RV_bind with (Qv := Qdt); [apply Hc; [constructor; auto|constructor]|]. intros o Ho.
    eapply RV_bind with (Qv := Qds); [apply Hmk1; auto|]. intros t' Ht'.
    cbn [Rres]. split; [reflexivity|]. split; [intros a Ha; inversion Ha; subst; auto|]. split; [auto|lia].
  Qed.
End Rel.

Section Top.
  Variable sym1 sym2 : symtab.
  Variable pr : nat -> nat -> Prop.
  Variable Qds Qdt Qdim : ty -> Prop.
  Variable garg : targ -> Prop.
  Variable gval : tval -> Prop.
  Hypothesis Hconstr : forall n,
    match st_dtype_constr sym1 n, st_dtype_constr sym2 n with
    | Some c1, Some c2 => forall args kw, Forall garg args -> Forall (fun p => garg (snd p)) kw ->
        RV pr Qdt (c1 args kw) (c2 args kw)
    | None, None => True
    | _, _ => False
    end.
  Hypothesis Hdtype : forall n, st_dtype sym1 n = st_dtype sym2 n /\
    forall t, st_dtype sym1 n = Some t -> Qdt t.
  Hypothesis Hdim : forall n, st_dim sym1 n = st_dim sym2 n /\
    forall t, st_dim sym1 n = Some t -> Qdim t.
  Hypothesis Hdconstr : forall n,
    match st_dim_constr sym1 n, st_dim_constr sym2 n with
    | Some c1, Some c2 => forall v, RV pr Qdim (c1 (val_targ v)) (c2 (val_targ v))
    | None, None => True
    | _, _ => False
    end.
  Hypothesis Hmk1 : forall t, Qdt t -> RV pr Qds (mk_ds [t]) (mk_ds [t]).
  Hypothesis Hmk2 : forall d t, Qdim d -> Qds t -> RV pr Qds (mk_ds (d :: ds_params t)) (mk_ds (d :: ds_params t)).
  Hypothesis Hg_ds : forall t, Qds t -> garg (ADs t).
  Hypothesis Hg_val : forall v, gval v -> garg (val_targ v).
  Hypothesis Htypevar :
    match st_dtype_constr sym1 $"typevar", st_dtype_constr sym2 $"typevar" with
    | Some c1, Some c2 => forall v, RV pr Qdt (c1 [val_targ v] []) (c2 [val_targ v] [])
    | None, None => True
    | _, _ => False
    end.
  Hypothesis Hstruct :
    match st_dtype_constr sym1 $"struct", st_dtype_constr sym2 $"struct" with
    | Some c1, Some c2 => forall names tys, Forall Qds tys ->
        RV pr Qdt (c1 [AList (map AStr names); AList (map ADs tys)] [])
                  (c2 [AList (map AStr names); AList (map ADs tys)] [])
    | None, None => True
    | _, _ => False
    end.
  Hypothesis Hg_list : forall l, Forall garg l -> garg (AList l).

  Lemma datashape_rel n m ts1 ts2 : SR pr gval ts1 ts2 -> (length ts1 < n)%nat -> (length ts1 < m)%nat ->
    Rres pr gval Qds (length ts1) (parse_datashape sym1 n ts1) (parse_datashape sym2 m ts2).
  Proof.
    revert m ts1 ts2. induction n as [|n IH]; intros m ts1 ts2 HS Hn Hm; [lia|].
    destruct m as [|m]; [lia|]. cbn [parse_datashape].
    eapply datashape_step_rel with (N := length ts1) (Qdt := Qdt) (Qdim := Qdim) (garg := garg); eauto.
    intros a b Hab Hl. apply IH; auto; lia.
  Qed.

  Lemma parse_toks_rel ts1 ts2 : strel pr gval ts1 ts2 ->
    RV pr Qds (parse_toks sym1 ts1) (parse_toks sym2 ts2).
  Proof.
    intro H.
    assert (G : SR pr gval ts1 ts2 ->
      RV pr Qds (let! (ds, r) := parse_datashape sym1 (S (length ts1)) ts1 in
             match ds with None => raise_error r MInvalid | Some t => if at_end r then Ok t else raise_error r MUnexpected end)
            (let! (ds, r) := parse_datashape sym2 (S (length ts2)) ts2 in
             match ds with None => raise_error r MInvalid | Some t => if at_end r then Ok t else raise_error r MUnexpected end)).
    { intro HS. pose proof (datashape_rel (S (length ts1)) (S (length ts2)) ts1 ts2 HS ltac:(lia)
         ltac:(rewrite (SR_length _ _ _ _ HS); lia)) as H2.
      match type of H2 with Rres _ _ _ _ ?x ?y =>
        destruct x as [[dt1 p1]|e1], y as [[dt2 p2]|e2]; cbn [Rres] in H2; try contradiction; [|exact H2] end.
      destruct H2 as [Ho2 [HQ2 [Sp Lp]]]. subst. cbn [bind].
      pose proof (SR_pos _ _ _ _ Sp) as Hpos.
      destruct dt2 as [t|]; [|simpl; eauto].
      assert (at_end p2 = at_end p1) as ->.
      { destruct Sp as [Sp _]. destruct Sp; reflexivity. }
      destruct (at_end p1); simpl; eauto. }
    unfold parse_toks. destruct H as [p q Hpq|e1 e2 He|t1 t2 r1 r2 H1 H2 H3 H4 H5].
    - apply G. split; [constructor; auto|exact I].
    - exact He.
    - apply G. split; [constructor; auto|exact I].
  Qed.
End Top.
