(** C22, C23: slices of dimensions of unknown length, and which exception is raised. *)
From Verif Require Import Base Types Construct Ops Spec_WF Spec_Ops Proof_WF Proof_Eq Proof_Canon Proof_Slice Proof_Ops Proof_Ops2 Proof_Ops3 Proof_Slice2.
Local Open Scope Z_scope.

Lemma sub1_any nm d ps : WF (DataShapeT nm (d :: ps)) -> ps <> [] -> subarray (DataShapeT nm (d :: ps)) 1 = Ok (DataShapeT None ps) /\ okps ps.
Proof.
  intros W N. pose proof (W _ (Occurs_here _)) as I. assert (O : okps ps) by (eapply okps_tail; [exact I|auto]). split; auto.
  rewrite subarray_ok; [reflexivity|exact I|]. destruct ps; [contradiction|]. cbn [length]. lia.
Qed.
Lemma slice_open nm d ps a b c : WF (DataShapeT nm (d :: ps)) -> ps <> [] -> (forall fs, d <> RecordT fs) ->
  subshape (IxSlice a b c) (DataShapeT nm (d :: ps)) =
  let! k := slice_count d a b c in
  match k with Some k => if 0 <=? k then Ok (DataShapeT None (FixedT k :: ps)) else Raise ValueErr
  | None => Ok (DataShapeT None (VarT :: ps)) end.
Proof.
  intros W N R. destruct (sub1_any nm d ps W N) as [E O]. cbn [subshape]. unfold subshape_plain. cbn [ds_head].
  replace (match d with RecordT fs => _ | _ => _ end) with
   (let! n := slice_count d a b c in let! s := subarray (DataShapeT nm (d :: ps)) 1 in match n with Some k => mul_int k s | None => mul_ty VarT s end)
   by (destruct d; try reflexivity; exfalso; eapply R; reflexivity).
  destruct (slice_count d a b c) as [[k|]|]; cbn [bind]; auto; rewrite E; cbn [bind].
  - destruct (Z.leb_spec 0 k); [apply mul_int_ds; auto|apply mul_int_neg; auto].
  - apply mul_ds; [auto|apply Dim_notMeasure; constructor|apply Dim_notLone; constructor].
Qed.
Lemma or_int_0 a : or_int a 0 = match a with None => 0 | Some v => v end.
Proof. destruct a as [v|]; [|reflexivity]. cbn. destruct (Z.eqb_spec v 0); lia. Qed.
Lemma slice_count_open d a b c : (forall n, d <> FixedT n) ->
  slice_count d a b c =
    match b with
    | Some e => if (0 <=? e) && (0 <=? match a with None => 0 | Some v => v end) then
        match c with Some s => let! k := ceil_div_float (e - match a with None => 0 | Some v => v end) s in Ok (Some k)
                   | None => Ok (Some (e - match a with None => 0 | Some v => v end)) end
      else Ok None
    | None => Ok None
    end.
Proof.
  intro F. unfold slice_count. rewrite <- or_int_0.
  assert (X : forall (A : Type) (x : Z -> A) (y : A), match d with FixedT n => x n | _ => y end = y) by (intros A x y; destruct d; try reflexivity; exfalso; eapply F; reflexivity).
  rewrite X. destruct b as [e|]; [|destruct c; reflexivity]. destruct (_ && _); destruct c; reflexivity.
Qed.

Lemma is_dimension_Dim d : is_dimension d = true <-> Dim d.
Proof. split; [destruct d; try discriminate; constructor|intros []; reflexivity]. Qed.
Lemma invalid_index nm d ps :
  subshape IxNone (DataShapeT nm (d :: ps)) = Raise TypeErr /\
  ((forall fs, d <> RecordT fs) -> (forall s, subshape (IxStr s) (DataShapeT nm (d :: ps)) = Raise TypeErr) /\
   (~ Dim d -> (forall z, subshape (IxInt z) (DataShapeT nm (d :: ps)) = Raise TypeErr) /\
               (forall l, subshape (IxList l) (DataShapeT nm (d :: ps)) = Raise TypeErr))).
Proof.
  split; [reflexivity|]. intro R. split.
  - intro s. cbn [subshape]. unfold subshape_plain. cbn [ds_head]. destruct d; try reflexivity. exfalso; eapply R; reflexivity.
  - intro D. assert (N : is_dimension d = false) by (destruct (is_dimension d) eqn:E; auto; apply is_dimension_Dim in E; contradiction).
    split; intro z; cbn [subshape]; unfold subshape_plain; cbn [ds_head]; destruct d; try discriminate N; try reflexivity; exfalso; eapply R; reflexivity.
Qed.
Lemma measure_slice nm d a b : WF (DataShapeT nm [d]) -> (forall fs, d <> RecordT fs) ->
  subshape (IxSlice a b None) (DataShapeT nm [d]) = Raise IndexErr.
Proof.
  intros W R. cbn [subshape]. unfold subshape_plain. cbn [ds_head].
  assert (C : exists k, slice_count d a b None = Ok k) by (unfold slice_count; destruct (match d with FixedT _ => _ | _ => _ end); eauto).
  destruct C as [k C]. rewrite C. cbn [bind]. replace (subarray (DataShapeT nm [d]) 1) with (@Raise ty IndexErr) by reflexivity.
  cbn [bind]. destruct d; try reflexivity. exfalso; eapply R; reflexivity.
Qed.

(** lists of fields *)
Lemma mapM_number_ok fs l : (forall s, In (IxStr s) l -> In s (map fst fs)) -> exists js, mapM (field_number fs) l = Ok js /\
  Forall2 (fun i j => field_number fs i = Ok j) l js.
Proof.
  induction l as [|i l IH]; intro H; [exists []; split; [reflexivity|constructor]|].
  destruct IH as [js [E F]]; [intros s Hs; apply H; right; auto|]. rewrite mapM_cons, E.
  assert (X : exists j, field_number fs i = Ok j).
  { destruct i; try (eexists; reflexivity). cbn [field_number]. destruct (str_index _ _) eqn:Ei; eauto.
    exfalso. assert (I : In s (map fst fs)) by (apply H; left; reflexivity). clear - Ei I.
    revert Ei I. generalize (map fst fs). intros ns. induction ns as [|n ns IH]; [intros _ []|]. cbn [str_index].
    destruct (str_eqb n s) eqn:Es; [discriminate|]. destruct (str_index s ns); [discriminate|]. intros _ [->|I]; [|auto].
    assert (str_eqb s s = true) by (apply str_eqb_eq; reflexivity). congruence. }
  destruct X as [j X]. rewrite X. cbn [bind]. exists (j :: js). split; [reflexivity|constructor; auto].
Qed.
Lemma mapM_number_missing fs l : (exists s, In (IxStr s) l /\ ~ In s (map fst fs)) -> mapM (field_number fs) l = Raise ValueErr.
Proof.
  intros [s [I N]]. induction l as [|i l IH]; [contradiction|]. rewrite mapM_cons.
  assert (X : forall x, (exists j, field_number fs x = Ok j) \/ field_number fs x = Raise ValueErr)
    by (intro x; destruct x; cbn [field_number]; eauto; destruct (str_index _ _); eauto).
  destruct I as [->|I].
  - assert (E : field_number fs (IxStr s) = Raise ValueErr); [|rewrite E; reflexivity].
    cbn [field_number]. destruct (str_index s (map fst fs)) eqn:E; auto. exfalso. apply N. clear - E. revert n E.
    generalize (map fst fs). intro ns. induction ns as [|m ns IH]; intros n; [discriminate|]. cbn [str_index].
    destruct (str_eqb m s) eqn:Es; [intros _; left; apply str_eqb_eq in Es; auto|]. destruct (str_index s ns) eqn:Ei; [intros _; right; eapply IH; reflexivity|discriminate].
  - destruct (X i) as [[j E]|E]; rewrite E; cbn [bind]; [|reflexivity]. rewrite (IH I). reflexivity.
Qed.
Lemma py_nth_total {A} (l : list A) z : (exists x, py_nth l z = Ok x) \/ py_nth l z = Raise IndexErr.
Proof. unfold py_nth. destruct (_ || _); auto. destruct (nth_error _ _); eauto. Qed.
Theorem fields_raise n fs l : WF (DataShapeT n [RecordT fs]) -> (forall i, In i l -> (exists z, i = IxInt z) \/ (exists s, i = IxStr s)) ->
  let ds := DataShapeT n [RecordT fs] in
  let missing := exists s, In (IxStr s) l /\ ~ In s (map fst fs) in
  let outside := exists z, In (IxInt z) l /\ ~ (- Z.of_nat (length fs) <= z < Z.of_nat (length fs)) in
  (missing -> subshape (IxList l) ds = Raise ValueErr) /\
  (~ missing -> outside -> subshape (IxList l) ds = Raise IndexErr) /\
  (forall sel, Forall2 (FieldAt fs) l sel -> ~ NoDup (map fst sel) -> subshape (IxList l) ds = Raise ValueErr).
Proof.
  intros W K. cbv zeta. cbn [subshape]. unfold subshape_plain. cbn [ds_head]. split; [|split].
  - intro M. rewrite mapM_number_missing by exact M. reflexivity.
  - intros M O. destruct (mapM_number_ok fs l) as [js [E F]].
    { intros s I. destruct (in_dec (list_eq_dec N.eq_dec) s (map fst fs)); auto. exfalso. apply M. eauto. }
    rewrite E. cbn [bind]. rewrite select_ints.
    2:{ clear - F K. induction F as [|i j l js Fij F IH]; intros x []; subst.
        - destruct (K i (or_introl eq_refl)) as [[z' ->]|[s ->]]; cbn [field_number] in Fij; [injection Fij as <-; eauto|].
          destruct (str_index s (map fst fs)); [injection Fij as <-; eauto|discriminate].
        - apply IH; auto. intros; apply K; right; auto. }
    assert (X : mapM (field_at fs) js = Raise IndexErr); [|rewrite X; reflexivity].
    destruct O as [z [I Z]]. clear M E. revert I. induction F as [|i j l js Fij F IH]; [intros []|].
    assert (Kt : forall i, In i l -> (exists z, i = IxInt z) \/ (exists s, i = IxStr s)) by (intros x Hx; apply K; right; exact Hx).
    specialize (IH Kt). intro I. rewrite mapM_cons.
    assert (J : exists z', j = IxInt z').
    { destruct (K i (or_introl eq_refl)) as [[z' ->]|[s ->]]; cbn [field_number] in Fij; [injection Fij as <-; eauto|].
      destruct (str_index s (map fst fs)); [injection Fij as <-; eauto|discriminate]. }
    destruct J as [z' ->]. cbn [field_at]. destruct (py_nth_total fs z') as [[f Ef]|Ef]; rewrite Ef; cbn [bind]; [|reflexivity].
    destruct I as [->|I]; [|rewrite (IH I); reflexivity]. cbn [field_number] in Fij. injection Fij as <-. rewrite py_nth_out in Ef by exact Z. discriminate.
  - intros sel Fs ND. pose proof (record_Inv _ _ W) as HI.
    assert (EX : exists js, Forall2 (fun i j => field_number fs i = Ok j) l js /\ Forall2 (fun j f => field_at fs j = Ok f) js sel).
    { pose proof HI as [HNf _]. clear -Fs HNf. induction Fs as [|i f l sel H HF [js [IH1 IH2]]]; [exists []; split; constructor|].
      destruct (FieldAt_select fs i f HNf H) as [j [E1 E2]]. exists (j :: js). split; constructor; auto. }
    destruct EX as [js [E1 E2]]. apply mapM_Ok_Forall2 in E1, E2. rewrite E1. cbn [bind]. rewrite (select_ok _ _ _ E2). cbn [bind].
    assert (X : sub_record sel = Raise ValueErr); [|rewrite X; reflexivity].
    unfold sub_record, mk_record. rewrite map_map. cbn [fst].
    assert (L : mapM (fun f : str * parg => launder no_dsh (snd f)) (map (fun f : str * ty => (fst f, PTy (snd f))) sel) = Ok (map (fun f => launder_ty (snd f)) sel)).
    { clear. induction sel as [|f sel IH]; [reflexivity|]. cbn [map]. rewrite mapM_cons, IH. reflexivity. }
    rewrite L. cbn [bind]. destruct (nodup_str (map _ sel)) eqn:E; auto. exfalso. apply ND. apply nodup_str_NoDup in E. exact E.
Qed.

(** ** C23: exceptions *)
Lemma cat_step first n0 rest0 x : Leads first n0 rest0 -> IsDataShape x -> WF x ->
  (exists h n, seq_head x = Ok h /\ py_index h = Ok n /\ seq_eqb (seq_tail x) (true, rest0) = true /\ Matches first x) \/
  (exists h n, seq_head x = Ok h /\ py_index h = Ok n /\ seq_eqb (seq_tail x) (true, rest0) = false /\ (exists n r, Leads x n r) /\ ~ Matches first x) \/
  (exists h, seq_head x = Ok h /\ py_index h = Raise TypeErr /\ forall n r, ~ Leads x n r).
Proof.
  intros F [nm [ps ->]] W. assert (N : ps <> []).
  { intros ->. destruct (W _ (Occurs_here _)) as [dims [m [E _]]]. destruct dims; discriminate. }
  destruct ps as [|d ps]; [congruence|]. cbn [seq_head seq_tail tl].
  destruct d; try (right; right; eexists; split; [reflexivity|]; split; [reflexivity|]; intros k r [nm' E]; discriminate).
  match goal with |- context [FixedT ?k :: ps] => set (v := k) end.
  destruct (seq_eqb (true, ps) (true, rest0)) eqn:E; unfold seq_eqb in E; cbn [fst snd Bool.eqb andb] in E.
  - left. exists (FixedT v), v. split; [reflexivity|]. split; [reflexivity|]. split; [reflexivity|]. apply list_eqb_Forall2 in E.
    exists v, ps. split; [eexists; reflexivity|]. intros n1 r1 L. destruct (Leads_fun _ _ _ _ _ F L) as [_ <-]. exact E.
  - right; left. exists (FixedT v), v. split; [reflexivity|]. split; [reflexivity|]. split; [reflexivity|].
    split; [eexists v, ps, nm; reflexivity|]. intros [n1 [r1 [[nm1 L] M]]]. injection L as _ _ <-. specialize (M _ _ F).
    apply list_eqb_Forall2 in M. congruence.
Qed.
Lemma cat_loop_error first n0 rest0 acc l e : Leads first n0 rest0 -> (forall x, In x l -> IsDataShape x /\ WF x) ->
  (cat_loop (true, rest0) acc l = Raise e <-> CatError first l e).
Proof.
  intros F. revert acc. induction l as [|x l IH]; intros acc H.
  - cbn [cat_loop]. split; [discriminate|]. intros [[|p pre] [x [post [E _]]]]; discriminate.
  - assert (Hl : forall x, In x l -> IsDataShape x /\ WF x) by (intros y Y; apply H; right; auto).
    destruct (H x (or_introl eq_refl)) as [D W]. cbn [cat_loop].
    destruct (cat_step first n0 rest0 x F D W) as [[h [n [E1 [E2 [E3 M]]]]]|[[h [n [E1 [E2 [E3 [L M]]]]]]|[h [E1 [E2 L]]]]]; rewrite E1; cbn [bind]; rewrite E2; cbn [bind]; rewrite ?E3.
    + rewrite (IH (acc + n) Hl). split.
      * intros [pre [y [post [-> [P Q]]]]]. exists (x :: pre), y, post. split; [reflexivity|]. split; [|exact Q]. intros z [<-|Z]; auto.
      * intros [[|p pre] [y [post [E [P Q]]]]].
        { injection E as <- <-. exfalso. destruct Q as [[_ Q]|[_ [_ Q]]]; [|contradiction]. destruct M as [k [r [M _]]]. exact (Q k r M). }
        injection E as <- ->. exists pre, y, post. split; [reflexivity|]. split; [intros z Z; apply P; right; exact Z|exact Q].
    + split.
      * intro X; injection X as <-. exists [], x, l. split; [reflexivity|]. split; [intros ? []|]. right. auto.
      * intros [[|p pre] [y [post [E [P Q]]]]].
        { injection E as <- <-. destruct Q as [[_ Q]|[-> _]]; [|reflexivity]. exfalso. destruct L as [k [r L]]. exact (Q k r L). }
        injection E as <- ->. exfalso. apply M, P. left; reflexivity.
    + split.
      * intro X; injection X as <-. exists [], x, l. split; [reflexivity|]. split; [intros ? []|]. left. auto.
      * intros [[|p pre] [y [post [E [P Q]]]]].
        { injection E as <- <-. destruct Q as [[-> _]|[_ [[k [r Q]] _]]]; [reflexivity|]. exfalso. exact (L k r Q). }
        injection E as <- ->. exfalso. destruct (P x (or_introl eq_refl)) as [k [r [M _]]]. exact (L k r M).
Qed.
Theorem cat_error d1 d2 l e : (forall x, In x (d1 :: d2 :: l) -> IsDataShape x /\ WF x) ->
  (cat_dshapes (d1 :: d2 :: l) = Raise e <-> CatError d1 (d1 :: d2 :: l) e).
Proof.
  intro H. destruct (H d1 (or_introl eq_refl)) as [D W].
  assert (Hl : forall x, In x (d2 :: l) -> IsDataShape x /\ WF x) by (intros y Y; apply H; right; auto).
  assert (LF : (exists n r, Leads d1 n r) \/ ~ exists n r, Leads d1 n r).
  { destruct D as [nm [ps ->]]. destruct ps as [|x ps]; [right; intros [n [r [k E]]]; discriminate|].
    destruct x; try (right; intros [n [r [k E]]]; discriminate). left. repeat eexists. }
  destruct LF as [[n0 [rest0 F]]|NF].
  - assert (T : seq_head d1 = Ok (FixedT n0) /\ seq_tail d1 = (true, rest0)) by (destruct F as [nm ->]; split; reflexivity).
    destruct T as [T1 T2]. pose proof (cat_loop_error d1 n0 rest0 n0 (d2 :: l) e F Hl) as C.
    assert (M1 : Matches d1 d1).
    { exists n0, rest0. split; [exact F|]. intros n1 r1 L. destruct (Leads_fun _ _ _ _ _ F L) as [_ <-]. apply EqTails_refl. }
    assert (S : CatError d1 (d1 :: d2 :: l) e <-> CatError d1 (d2 :: l) e).
    { split.
      - intros [[|p pre] [y [post [E [P Q]]]]].
        + injection E as <- _. exfalso. destruct Q as [[_ Q]|[_ [_ Q]]]; [exact (Q _ _ F)|contradiction].
        + injection E as _ E. exists pre, y, post. split; [exact E|]. split; [intros z Z; apply P; right; exact Z|exact Q].
      - intros [pre [y [post [E [P Q]]]]]. exists (d1 :: pre), y, post. rewrite E. split; [reflexivity|]. split; [|exact Q]. intros z [<-|Z]; auto. }
    rewrite S, <- C. cbn [cat_dshapes]. rewrite T1. cbn [bind py_index]. rewrite T2. cbn [snd].
    destruct (cat_loop (true, rest0) n0 (d2 :: l)) as [total|e'] eqn:Ec; cbn [bind]; [|split; congruence].
    split; [|discriminate]. intro X. exfalso.
    assert (Y : exists r, cat_dshapes (d1 :: d2 :: l) = Ok r); [|destruct Y as [r Y]; cbn [cat_dshapes] in Y; rewrite T1 in Y; cbn [bind py_index] in Y; rewrite T2 in Y; cbn [snd] in Y; rewrite Ec in Y; cbn [bind] in Y; congruence].
    assert (WA : forall x, In x (d1 :: d2 :: l) -> WF x) by (intros y Z; apply H, Z).
    destruct (cat_loop_ok _ _ _ _ Ec) as [ns [Fn _]].
    eexists. apply (cat_iff d1 d2 l); [exact WA|]. exists rest0, (n0 :: ns). split; [exists d1, (d2 :: l); split; auto; eauto|]. split; [|reflexivity].
    constructor; [exists rest0; split; [exact F|apply EqTails_refl]|].
    assert (WB : forall x, In x (d2 :: l) -> WF x) by (intros y Z; apply H; right; exact Z). clear - Fn WB.
    induction Fn as [|x k m ns [h [E1 [-> E3]]] Fn IH]; [constructor|]. constructor; [|apply IH; intros y Y; apply WB; right; exact Y].
    apply head_leads; auto. apply WB. left; reflexivity.
  - assert (T : exists h, seq_head d1 = Ok h /\ py_index h = Raise TypeErr).
    { destruct D as [nm [ps ->]]. destruct ps as [|x ps]; [destruct (W _ (Occurs_here _)) as [dims [m [E _]]]; destruct dims; discriminate|].
      exists x. split; [reflexivity|]. destruct x; try reflexivity. exfalso. apply NF. repeat eexists. }
    destruct T as [h [T1 T2]]. cbn [cat_dshapes]. rewrite T1. cbn [bind]. rewrite T2. cbn [bind]. split.
    + intro X; injection X as <-. exists [], d1, (d2 :: l). split; [reflexivity|]. split; [intros ? []|]. left. split; auto. intros n r L. apply NF; eauto.
    + intros [[|p pre] [y [post [E [P Q]]]]].
      * injection E as <- _. destruct Q as [[-> _]|[_ [Q _]]]; [reflexivity|contradiction].
      * injection E as <- _. exfalso. destruct (P d1 (or_introl eq_refl)) as [n [r [L _]]]. apply NF; eauto.
Qed.
