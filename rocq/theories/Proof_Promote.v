(** Proofs about promotion (C28), [maxtype] (C29) and [isnumeric]. *)
From Verif Require Proof_NpConv3.
From Verif Require Import Base Types Lexer Printer Construct Preds Numpy Spec_Numpy Spec_Time Spec_WF Proof_Eq Proof_WF Proof_Numpy.
Local Open Scope Z_scope.

(** ** promote *)
Definition cap_le (c c' : capacity) : bool :=
  (cap_lo c' <=? cap_lo c) && (cap_hi c <=? cap_hi c')
  && implb (cap_frac c) (cap_frac c') && implb (cap_imag c) (cap_imag c')
  && ((cap_bits c <=? cap_bits c') || (cap_bits c' =? 53)).
Lemma cap_le_spec c c' : cap_le c c' = true <->
  cap_lo c' <= cap_lo c /\ cap_hi c <= cap_hi c' /\ (cap_frac c = true -> cap_frac c' = true)
  /\ (cap_imag c = true -> cap_imag c' = true) /\ (cap_bits c <= cap_bits c' \/ cap_bits c' = 53).
Proof.
  unfold cap_le. rewrite !andb_true_iff, orb_true_iff, !Z.leb_le, Z.eqb_eq.
  destruct (cap_frac c), (cap_frac c'), (cap_imag c), (cap_imag c'); simpl; intuition congruence.
Qed.
Definition ct_eqb (a b : ty) : bool :=
  match a, b with
  | CType n i al, CType n' i' al' => str_eqb n n' && Z.eqb i i' && Z.eqb al al'
  | _, _ => false
  end.
Lemma ct_eqb_eq a b : ct_eqb a b = true -> a = b.
Proof.
  destruct a, b; simpl; try discriminate. rewrite !andb_true_iff, str_eqb_eq, !Z.eqb_eq.
  intros [[-> ->] ->]. reflexivity.
Qed.
Definition covers_b (t r : ty) : bool :=
  ct_eqb r object_t ||
  existsb (fun x => ct_eqb (fst x) t &&
    existsb (fun y => ct_eqb (fst y) r && cap_le (snd x) (snd y)) capacities) capacities.
Definition all_scalars : list ty := object_t :: map fst capacities.
Lemma NumScalar_all t : NumScalar t <-> In t all_scalars.
Proof. unfold NumScalar, all_scalars. cbn [In]. intuition. Qed.
Lemma ct_eqb_refl_scalar t : In t all_scalars -> ct_eqb t t = true.
Proof. intro H. simpl in H. repeat destruct H as [<-|H]; try contradiction; reflexivity. Qed.
Lemma covers_b_spec t r : covers_b t r = true <-> Covers t r.
Proof.
  unfold covers_b, Covers. rewrite orb_true_iff, existsb_exists. split.
  - intros [H|((t' & c) & Hin & H)]; [left; now apply ct_eqb_eq|].
    apply andb_true_iff in H as [H1 H2]. apply existsb_exists in H2 as ((r' & c') & Hin' & H2).
    apply andb_true_iff in H2 as [H2 H3]. apply ct_eqb_eq in H1, H2. cbn [fst snd] in *. subst.
    apply cap_le_spec in H3. right. exists c, c'. intuition.
  - intros [->|(c & c' & H1 & H2 & H3)]; [left; reflexivity|]. right.
    exists (t, c). split; [exact H1|]. apply andb_true_iff. split.
    + apply ct_eqb_refl_scalar. right. apply in_map_iff. exists (t, c). auto.
    + apply existsb_exists. exists (r, c'). split; [exact H2|]. apply andb_true_iff. split.
      * apply ct_eqb_refl_scalar. right. apply in_map_iff. exists (r, c'). auto.
      * now apply cap_le_spec.
Qed.

(** all pairs of scalars at once *)
Definition promote_check (a b : ty) : bool :=
  match promote a b true, promote b a true with
  | Ok r, Ok r' =>
      ct_eqb r r' && existsb (ct_eqb r) all_scalars && covers_b a r && covers_b b r
      && forallb (fun s => implb (covers_b a s && covers_b b s && covers_b s r) (ct_eqb s r)) all_scalars
      && match promote a b false, promote (OptionT a) b true, promote a (OptionT b) true,
               promote (OptionT a) (OptionT b) true, promote (OptionT a) b false,
               promote a (OptionT b) false with
         | Ok r1, Ok (OptionT r2), Ok (OptionT r3), Ok (OptionT r4), Ok r5, Ok r6 =>
             ct_eqb r r1 && ct_eqb r r2 && ct_eqb r r3 && ct_eqb r r4 && ct_eqb r r5 && ct_eqb r r6
         | _, _, _, _, _, _ => false
         end
  | _, _ => false
  end.
Lemma promote_all : forallb (fun a => forallb (promote_check a) all_scalars) all_scalars = true.
Proof. vm_compute. reflexivity. Qed.

Lemma promote_scalars a b : NumScalar a -> NumScalar b ->
  exists r, NumScalar r
    /\ promote a b true = Ok r /\ promote a b false = Ok r
    /\ promote b a true = Ok r
    /\ promote (OptionT a) b true = Ok (OptionT r)
    /\ promote a (OptionT b) true = Ok (OptionT r)
    /\ promote (OptionT a) (OptionT b) true = Ok (OptionT r)
    /\ promote (OptionT a) b false = Ok r /\ promote a (OptionT b) false = Ok r
    /\ Covers a r /\ Covers b r
    /\ (forall s, NumScalar s -> Covers a s -> Covers b s -> Covers s r -> s = r).
Proof.
  intros Ha Hb. apply NumScalar_all in Ha, Hb.
  pose proof promote_all as H. rewrite forallb_forall in H. specialize (H a Ha).
  rewrite forallb_forall in H. specialize (H b Hb). unfold promote_check in H.
  destruct (promote a b true) as [r|] eqn:E1; [|discriminate].
  destruct (promote b a true) as [r'|] eqn:E2; [|discriminate].
  rewrite !andb_true_iff in H. destruct H as [[[[[H1 H2] H3] H4] H5] H6].
  destruct (promote a b false) as [r1|] eqn:E3; [|discriminate].
  destruct (promote (OptionT a) b true) as [[]|] eqn:E4; try discriminate.
  destruct (promote a (OptionT b) true) as [[]|] eqn:E5; try discriminate.
  destruct (promote (OptionT a) (OptionT b) true) as [[]|] eqn:E6; try discriminate.
  destruct (promote (OptionT a) b false) as [r5|] eqn:E7; [|discriminate].
  destruct (promote a (OptionT b) false) as [r6|] eqn:E8; [|discriminate].
  rewrite !andb_true_iff in H6. destruct H6 as [[[[[K1 K2] K3] K4] K5] K6].
  apply ct_eqb_eq in H1, K1, K2, K3, K4, K5, K6. subst.
  exists r6. rewrite existsb_exists in H2. destruct H2 as (s & Hs & Es).
  apply ct_eqb_eq in Es. subst s.
  repeat split; auto.
  - now apply NumScalar_all.
  - now apply covers_b_spec.
  - now apply covers_b_spec.
  - intros s Hs' Ca Cb Cs. apply NumScalar_all in Hs'. rewrite forallb_forall in H5. specialize (H5 s Hs').
    apply covers_b_spec in Ca, Cb, Cs. rewrite Ca, Cb, Cs in H5. now apply ct_eqb_eq.
Qed.

(** [promote(a, a) == a] for every datashape *)
Lemma promote_idem a po : promote a a po = Ok a.
Proof. unfold promote. rewrite py_eq_refl. reflexivity. Qed.

Lemma isz_max_comm a b : isz_max a b = isz_max b a.
Proof. destruct a, b; reflexivity. Qed.
Lemma fsz_max_comm a b : fsz_max a b = fsz_max b a.
Proof. destruct a, b; reflexivity. Qed.
Lemma csz_max_comm a b : csz_max a b = csz_max b a.
Proof. destruct a, b; reflexivity. Qed.
Lemma position_inj u v l i : position u l = Some i -> position v l = Some i -> u = v.
Proof.
  revert i; induction l as [|x l IH]; simpl; intros i; [discriminate|].
  destruct (str_eqb u x) eqn:Eu, (str_eqb v x) eqn:Ev.
  - apply str_eqb_eq in Eu, Ev. congruence.
  - intros [= <-]. destruct (position v l); discriminate.
  - intros H [= <-]. destruct (position u l); discriminate.
  - destruct (position u l), (position v l); intros [= <-] [= E]; subst; eauto.
Qed.
Lemma common_unit_comm k u v : common_unit k u v = common_unit k v u.
Proof.
  unfold common_unit. rewrite (str_eqb_sym v u). destruct (str_eqb u v) eqn:E.
  { apply str_eqb_eq in E. now subst. }
  destruct (position u _) as [i|] eqn:Ei, (position v _) as [j|] eqn:Ej; auto.
  - destruct (Nat.ltb_spec i j), (Nat.ltb_spec j i); auto; try lia.
    assert (i = j) by lia. subst. f_equal. eapply position_inj; eauto.
  - now rewrite andb_comm.
Qed.
Lemma result_type_comm a b : result_type a b = result_type b a.
Proof.
  assert (HD : forall u m v k, result_type (NDatetime u m) (NDatetime v k) = result_type (NDatetime v k) (NDatetime u m)).
  { intros u m v k. simpl. destruct m as [|[]|], k as [|[]|]; auto. now rewrite common_unit_comm. }
  assert (HT : forall u m v k, result_type (NTimedelta u m) (NTimedelta v k) = result_type (NTimedelta v k) (NTimedelta u m)).
  { intros u m v k. simpl. destruct m as [|[]|], k as [|[]|]; auto. now rewrite common_unit_comm. }
  destruct a, b; try apply HD; try apply HT; try reflexivity; simpl; try (now rewrite Z.max_comm);
    try (destruct num as [|[]|]; try reflexivity; destruct num0 as [|[]|]; reflexivity);
    rewrite ?(isz_max_comm s), ?(fsz_max_comm s), ?(csz_max_comm s); reflexivity.
Qed.

Lemma get_ty_WF t : WF t -> WF (get_ty t).
Proof.
  intros H. destruct t; try exact H. intros u Hu. apply H. eapply Occurs_in; [left; reflexivity|exact Hu].
Qed.
Lemma get_ty_NoTS t : NoTypeSet t -> NoTypeSet (get_ty t).
Proof.
  intros H. destruct t; try exact H. intros l n Hu. apply (H l n).
  eapply Occurs_in; [left; reflexivity|exact Hu].
Qed.
Lemma WF_string : WF string_t.
Proof. apply wf_WF. reflexivity. Qed.
Lemma NoTS_string : NoTypeSet string_t.
Proof. apply no_typeset_spec. reflexivity. Qed.
Lemma eq_sym_WF a b : WF a -> WF b -> NoTypeSet a -> NoTypeSet b -> py_eq a b = py_eq b a.
Proof.
  intros. apply py_eq_sym; try (apply wf_WF; assumption); apply no_typeset_spec; assumption.
Qed.

Lemma promote_sym a b po r : WF a -> WF b -> NoTypeSet a -> NoTypeSet b ->
  promote a b po = Ok r -> exists r', promote b a po = Ok r' /\ py_eq r r' = true.
Proof.
  intros Wa Wb Na Nb. unfold promote. rewrite (eq_sym_WF b a) by assumption.
  destruct (py_eq a b) eqn:E.
  { intro H. inversion H; subst. eauto. }
  pose proof (get_ty_WF _ Wa) as Wl. pose proof (get_ty_WF _ Wb) as Wr.
  pose proof (get_ty_NoTS _ Na) as Nl. pose proof (get_ty_NoTS _ Nb) as Nr.
  assert (HC : py_eq (get_ty b) (get_ty a) && py_eq (get_ty a) string_t
             = py_eq (get_ty a) (get_ty b) && py_eq (get_ty b) string_t).
  { rewrite (eq_sym_WF (get_ty b) (get_ty a)) by assumption.
    destruct (py_eq (get_ty a) (get_ty b)) eqn:E2; [|reflexivity]. cbn [andb].
    destruct (py_eq (get_ty b) string_t) eqn:E3.
    - eapply py_eq_trans; eassumption.
    - destruct (py_eq (get_ty a) string_t) eqn:E4; [|reflexivity].
      rewrite <- E3. symmetry. eapply py_eq_trans; [|exact E4].
      rewrite eq_sym_WF by assumption. exact E2. }
  rewrite HC.
  assert (HO : forall d, optionify b a d = optionify a b d).
  { intro d. unfold optionify. rewrite (orb_comm (has_ty b)). reflexivity. }
  destruct (py_eq (get_ty a) (get_ty b) && py_eq (get_ty b) string_t).
  - unfold bind. rewrite HO. intro H. inversion H; subst. eexists. split; [reflexivity|]. apply py_eq_refl.
  - destruct (to_numpy_dtype (get_ty a)) as [l|]; [|discriminate].
    destruct (to_numpy_dtype (get_ty b)) as [rr|]; [|discriminate].
    unfold bind. rewrite (result_type_comm rr l). destruct (result_type l rr) as [d|]; [|discriminate].
    destruct (ctype_from_numpy_dtype d) as [t|]; [|discriminate].
    rewrite HO. intro H. inversion H; subst. eexists. split; [reflexivity|]. apply py_eq_refl.
Qed.

Lemma assoc_In {A} k (l : list (str * A)) v : assoc k l = Some v -> In v (map snd l).
Proof.
  induction l as [|[k' v'] l IH]; [discriminate|]. cbn. destruct (str_eqb k k').
  - intro H. inversion H. auto.
  - auto.
Qed.
Lemma from_dtype_plain d t : ctype_from_numpy_dtype d = Ok t -> is_Option t = false /\ is_DataShape t = false.
Proof.
  revert t. induction d; intros t H; unfold ctype_from_numpy_dtype in H; fold ctype_from_numpy_dtype in H;
    match type of H with (match ?x with _ => _ end = _) => destruct x eqn:E end;
    try (apply assoc_In in E; inversion H; subst; clear H; cbn [type_registry map snd In] in E;
         repeat destruct E as [<-|E]; try contradiction; split; reflexivity);
    try discriminate.
  - unfold mk_string in H. destruct (assoc _ string_encodings); inversion H. split; reflexivity.
  - unfold mk_string in H. destruct (assoc _ string_encodings); inversion H. split; reflexivity.
  - destruct (mem_str unit _); inversion H; split; reflexivity.
  - unfold mk_timedelta in H. destruct (normalize_time_unit unit); inversion H. split; reflexivity.
  - apply IHd. exact H.
Qed.
Lemma launder_nonopt t : is_DataShape t = false -> launder_ty t = t.
Proof. destruct t; try discriminate; reflexivity. Qed.

Lemma optionify_opt a b d : is_Option d = false -> is_DataShape d = false ->
  is_Option (optionify a b d) = is_Option a || is_Option b.
Proof.
  intros H1 H2. unfold optionify, has_ty.
  replace (is_Option (measure d)) with false by (destruct d; try discriminate; reflexivity).
  destruct (is_Option a || is_Option b); [reflexivity|exact H1].
Qed.
Lemma promote_neq a b po r : py_eq a b = false -> promote a b po = Ok r ->
  is_Option r = po && (is_Option a || is_Option b).
Proof.
  intro E. unfold promote. rewrite E.
  assert (HO : forall d, is_Option d = false -> is_DataShape d = false ->
     is_Option (if po then optionify a b d else d) = po && (is_Option a || is_Option b)).
  { intros d H1 H2. destruct po; cbn [andb]; [now apply optionify_opt|assumption]. }
  destruct (py_eq (get_ty a) (get_ty b) && py_eq (get_ty b) string_t).
  - unfold bind. intro H. inversion H; subst. apply HO; reflexivity.
  - destruct (to_numpy_dtype (get_ty a)) as [l|]; [|discriminate].
    destruct (to_numpy_dtype (get_ty b)) as [rr|]; [|discriminate].
    unfold bind. destruct (result_type l rr) as [d|]; [|discriminate].
    destruct (ctype_from_numpy_dtype d) as [t|] eqn:Et; [|discriminate].
    intro H. inversion H; subst. apply from_dtype_plain in Et as [H1 H2]. apply HO; assumption.
Qed.
Lemma py_eq_option a b : is_DataShape a = false -> is_DataShape b = false ->
  py_eq a b = true -> is_Option a = is_Option b.
Proof.
  intros Ha Hb H. apply py_eq_split in H as [(v & -> & ->)|[(ts & n & us & -> & -> & _)|(_ & _ & H)]]; try reflexivity.
  replace (measure a) with a in H by (destruct a; try discriminate; reflexivity).
  replace (measure b) with b in H by (destruct b; try discriminate; reflexivity).
  destruct a, b; try discriminate; reflexivity.
Qed.
Lemma promote_option a b r : is_DataShape a = false -> is_DataShape b = false ->
  promote a b true = Ok r -> is_Option r = is_Option a || is_Option b.
Proof.
  intros Ha Hb H. destruct (py_eq a b) eqn:E.
  - pose proof (py_eq_option a b Ha Hb E) as HE. unfold promote in H. rewrite E in H. inversion H; subst.
    rewrite HE. destruct (is_Option b); reflexivity.
  - now apply promote_neq in H.
Qed.

(** ** texts, dates and time differences *)
Definition core (a b : ty) : res ty :=
  if py_eq a b && py_eq b string_t then Ok string_t
  else let! l := to_numpy_dtype a in let! r := to_numpy_dtype b in
       let! d := result_type l r in ctype_from_numpy_dtype d.
Definition opt_if (o : bool) (t : ty) : ty := if o then OptionT t else t.
Lemma promote_core a b r (oa ob : bool) : is_Option a = false -> is_Option b = false ->
  is_DataShape a = false -> is_DataShape b = false ->
  core a b = Ok r -> is_Option r = false -> is_DataShape r = false ->
  (oa = ob -> py_eq a b = false) ->
  promote (opt_if oa a) (opt_if ob b) true = Ok (opt_if (oa || ob) r) /\
  promote (opt_if oa a) (opt_if ob b) false = Ok r.
Proof.
  intros Oa Ob Da Db HC Or Dr Hne.
  assert (E : py_eq (opt_if oa a) (opt_if ob b) = false).
  { destruct (py_eq (opt_if oa a) (opt_if ob b)) eqn:E; [|reflexivity]. exfalso.
    pose proof E as E'. apply py_eq_option in E'; [|destruct oa; auto|destruct ob; auto].
    assert (oa = ob). { destruct oa, ob; cbn in E'; congruence. } subst ob. specialize (Hne eq_refl).
    destruct oa; cbn [opt_if] in E; [|congruence]. rewrite py_eq_unfold in E. cbn [shape measure list_eqb info_eqb andb] in E. apply andb_true_iff in E. destruct E; congruence. }
  assert (Gt : forall o t, is_Option t = false -> get_ty (opt_if o t) = t).
  { intros o t Ht. destruct o; [reflexivity|]. destruct t; auto; discriminate. }
  unfold promote. rewrite E. unfold core in HC. rewrite !Gt by assumption.
  assert (EC : forall k : ty -> res ty, (let! dtype := (if py_eq a b && py_eq b string_t then Ok string_t
      else let! l := to_numpy_dtype a in let! r0 := to_numpy_dtype b in
           let! d := result_type l r0 in ctype_from_numpy_dtype d) in k dtype) = k r).
  { intro k. rewrite HC. reflexivity. }
  split.
  - rewrite (EC (fun d => Ok (if true then optionify (opt_if oa a) (opt_if ob b) d else d))). cbn iota. f_equal.
    unfold optionify, has_ty.
    replace (is_Option (measure r)) with false by (destruct r; try discriminate; reflexivity).
    replace (is_Option (opt_if oa a) || is_Option (opt_if ob b)) with (oa || ob) by (destruct oa, ob; cbn; rewrite ?Oa, ?Ob; reflexivity).
    destruct (oa || ob); [|reflexivity]. cbn. now rewrite launder_nonopt.
  - exact (EC (fun d => Ok d)).
Qed.
Lemma numpy_num t : In t (map fst capacities) -> exists d, to_numpy_dtype t = Ok d /\
  match d with NBool | NInt _ | NUInt _ | NFloat _ | NComplex _ => True | _ => False end.
Proof.
  intro H. cbn [capacities map fst In] in H.
  repeat (destruct H as [<-|H]; [eexists; split; [vm_compute; reflexivity|exact I]|]). contradiction.
Qed.
Lemma numpy_object t : ObjectStored t -> to_numpy_dtype t = Ok NObject.
Proof. intros [->|[e ->]]; reflexivity. Qed.
Lemma numpy_any t : AnyScalar t -> exists d, to_numpy_dtype t = Ok d /\ result_type NObject d = Ok NObject.
Proof.
  intros [[->|H]|[H|[[->|[z ->]]|[[u ->]|(n & e & -> & Hn)]]]].
  - exists NObject; split; reflexivity.
  - destruct (numpy_num t H) as [d [-> Hd]]. exists d. split; auto. destruct d; try contradiction; reflexivity.
  - exists NObject. split; [now apply numpy_object|reflexivity].
  - eexists; split; reflexivity.
  - eexists; split; reflexivity.
  - eexists; split; reflexivity.
  - assert (E : string_to_numpy (Some n) e = Ok (if n =? 0 then NObject else if str_eqb e $"A" then NBytes n else NUnicode n)).
    { unfold string_to_numpy. destruct (n =? 0); [reflexivity|].
      destruct (Z.ltb_spec n 0); [lia|]. destruct (Z.ltb_spec np_maxlen n); [lia|]. cbn [orb]. destruct (str_eqb e _); reflexivity. }
    exists (if n =? 0 then NObject else if str_eqb e $"A" then NBytes n else NUnicode n). split.
    + unfold to_numpy_dtype, to_numpy_dtype_with. cbn [measure to_numpy_with]. unfold npmeth. cbn [npmethF tsize].
      cbn [measure to_numpy_with npmethF]. rewrite E. reflexivity.
    + destruct (n =? 0); [reflexivity|]. destruct (str_eqb e _); reflexivity.
Qed.
Lemma AnyScalar_flat t : AnyScalar t -> is_Option t = false /\ is_DataShape t = false /\ (py_eq t string_t = true -> t = string_t).
Proof.
  intros [[->|H]|[[->|[e ->]]|[[->|[z ->]]|[[u ->]|(n & e & -> & Hn)]]]];
    try (repeat split; intro; discriminate).
  - cbn [capacities map fst In] in H.
    repeat (destruct H as [<-|H]; [repeat split; intro; vm_compute in *; discriminate|]). contradiction.
  - repeat split. rewrite py_eq_unfold. cbn [shape measure list_eqb info_eqb oZ_eqb andb string_t]. rewrite str_eqb_eq. intros ->. reflexivity.
Qed.
Lemma Object_any t : ObjectStored t -> AnyScalar t.
Proof. intro H. right; left; exact H. Qed.
Lemma core_object a b : ObjectStored a -> AnyScalar b -> ~ (a = string_t /\ b = string_t) ->
  core a b = Ok object_t /\ core b a = Ok object_t.
Proof.
  intros Ha Hb Hn. unfold core. rewrite (numpy_object a Ha). destruct (numpy_any b Hb) as [d [-> Hd]]. cbn [bind].
  rewrite (result_type_comm d NObject), Hd. cbn [bind].
  destruct (AnyScalar_flat a (Object_any a Ha)) as [_ [_ Sa]]. destruct (AnyScalar_flat b Hb) as [_ [_ Sb]].
  split.
  - destruct (py_eq a b && py_eq b string_t) eqn:E; [|reflexivity]. exfalso. apply andb_true_iff in E as [E1 E2].
    apply Sb in E2. subst b. apply Sa in E1. tauto.
  - destruct (py_eq b a && py_eq a string_t) eqn:E; [|reflexivity]. exfalso. apply andb_true_iff in E as [E1 E2].
    apply Sa in E2. subst a. apply Sb in E1. tauto.
Qed.
Lemma DateLike_any t : DateLike t -> AnyScalar t.
Proof. intro H. right; right; left. exact H. Qed.
Lemma Delta_any u : AnyScalar (TimeDeltaT u).
Proof. right; right; right; left. eauto. Qed.
Lemma string_numpy n e : 0 < n <= np_maxlen ->
  to_numpy_dtype (StringT (Some n) e) = Ok (if str_eqb e $"A" then NBytes n else NUnicode n).
Proof.
  intro H. unfold to_numpy_dtype, to_numpy_dtype_with. cbn [measure to_numpy_with]. unfold npmeth. cbn [npmethF tsize].
  cbn [measure to_numpy_with npmethF]. unfold string_to_numpy. destruct (Z.eqb_spec n 0); [lia|].
  destruct (Z.ltb_spec n 0); [lia|]. destruct (Z.ltb_spec np_maxlen n); [lia|]. cbn [orb]. destruct (str_eqb e _); reflexivity.
Qed.
Lemma text_ctype n : 0 < n -> ctype_from_numpy_dtype (NBytes n) = Ok (StringT (Some n) $"A") /\
  ctype_from_numpy_dtype (NUnicode n) = Ok (StringT (Some n) $"U32").
Proof.
  intro H. destruct (Proof_NpConv3.z2s_bytes_name n) as [E1 E2]; [lia|]. cbn [ctype_from_numpy_dtype]. rewrite E1, E2.
  split; reflexivity.
Qed.
Lemma Text_any n e : 0 < n <= np_maxlen -> AnyScalar (StringT (Some n) e).
Proof. intro H. right; right; right; right. exists n, e. split; [reflexivity|lia]. Qed.
Lemma core_text n e m f : 0 < n <= np_maxlen -> 0 < m <= np_maxlen ->
  core (StringT (Some n) e) (StringT (Some m) f) =
  Ok (StringT (Some (Z.max n m)) (if str_eqb e $"A" && str_eqb f $"A" then $"A" else $"U32")).
Proof.
  intros Hn Hm. unfold core.
  replace (py_eq (StringT (Some m) f) string_t) with false by reflexivity. rewrite andb_false_r.
  rewrite !string_numpy by assumption. cbn [bind].
  destruct (text_ctype (Z.max n m)) as [E1 E2]; [lia|].
  destruct (str_eqb e _), (str_eqb f _); cbn [result_type bind andb]; assumption.
Qed.
Lemma core_delta u v : core (TimeDeltaT u) (TimeDeltaT v) =
  let! w := common_unit true u v in ctype_from_numpy_dtype (NTimedelta w 1).
Proof.
  unfold core.
  replace (py_eq (TimeDeltaT v) string_t) with false by reflexivity. rewrite andb_false_r.
  change (to_numpy_dtype (TimeDeltaT u)) with (Ok (NTimedelta u 1)). change (to_numpy_dtype (TimeDeltaT v)) with (Ok (NTimedelta v 1)).
  cbn [bind result_type]. destruct (common_unit true u v); reflexivity.
Qed.
Lemma core_unit u v w : common_unit true u v = Ok w -> In w canonical_units ->
  core (TimeDeltaT u) (TimeDeltaT v) = Ok (TimeDeltaT w).
Proof.
  intros E Hw. rewrite core_delta, E. cbn [bind].
  unfold canonical_units in Hw. cbn [In] in Hw. repeat (destruct Hw as [<-|Hw]; [vm_compute; reflexivity|]). contradiction.
Qed.
Lemma units_table p q k : In p unit_lengths -> In q unit_lengths -> In k unit_lengths ->
  fst k = fst p \/ fst k = fst q -> (snd k | snd p) -> (snd k | snd q) -> common_unit true (fst p) (fst q) = Ok (fst k).
Proof.
  intros Hp Hq Hk Hor D1 D2.
  assert (T : forallb (fun p => forallb (fun q => forallb (fun k =>
     implb ((str_eqb (fst k) (fst p) || str_eqb (fst k) (fst q)) && (snd p mod snd k =? 0) && (snd q mod snd k =? 0))
           (match common_unit true (fst p) (fst q) with Ok x => str_eqb x (fst k) | _ => false end)) unit_lengths) unit_lengths) unit_lengths = true)
    by (vm_compute; reflexivity).
  assert (P : 0 < snd k).
  { assert (P : forallb (fun k => 0 <? snd k) unit_lengths = true) by (vm_compute; reflexivity).
    rewrite forallb_forall in P. apply Z.ltb_lt, P, Hk. }
  rewrite forallb_forall in T. specialize (T p Hp). rewrite forallb_forall in T. specialize (T q Hq).
  rewrite forallb_forall in T. specialize (T k Hk).
  assert (B : (str_eqb (fst k) (fst p) || str_eqb (fst k) (fst q)) && (snd p mod snd k =? 0) && (snd q mod snd k =? 0) = true).
  { rewrite !andb_true_iff, orb_true_iff, !str_eqb_eq, !Z.eqb_eq. split; [split; [exact Hor|]|]; apply Z.mod_divide; auto; lia. }
  rewrite B in T. cbn [implb] in T. destruct (common_unit true (fst p) (fst q)); [|discriminate]. apply str_eqb_eq in T. congruence.
Qed.
Lemma calendar_table u v : In u calendar_units -> In v (map fst unit_lengths) -> common_unit true u v = Raise TypeErr.
Proof.
  intros Hu Hv.
  assert (T : forallb (fun u => forallb (fun v =>
     match common_unit true u v with Raise TypeErr => true | _ => false end) (map fst unit_lengths)) calendar_units = true)
    by (vm_compute; reflexivity).
  rewrite forallb_forall in T. specialize (T u Hu). rewrite forallb_forall in T. specialize (T v Hv).
  destruct (common_unit true u v) as [|[]]; try discriminate. reflexivity.
Qed.
Lemma months_table u v : In u calendar_units -> In v calendar_units -> u <> v -> common_unit true u v = Ok $"M".
Proof.
  unfold calendar_units. cbn [In]. intros [<-|[<-|[]]] [<-|[<-|[]]] H; try congruence; reflexivity.
Qed.
Lemma Joined_core a b r : Joined a b r -> core a b = Ok r /\ AnyScalar a /\ AnyScalar b /\ is_Option r = false /\ is_DataShape r = false.
Proof.
  intros [| a' b' Ha Hb Hn | a' b' Ha Hb Hn | | a' b' Ha Hb Hn | u Hu | u v w lu lv lw Hu Hv Hw Huv D1 D2 | u v Hu Hv Huv
    | n m Hn Hm | n e m f Hn Hm He].
  - split; [reflexivity|]. assert (AnyScalar string_t) by (right; left; right; eexists; reflexivity). auto.
  - destruct (core_object a' b' Ha Hb Hn) as [-> _]. auto using Object_any.
  - destruct (core_object b' a' Hb Ha) as [_ ->]; [tauto|]. auto using Object_any.
  - split; [reflexivity|]. assert (AnyScalar DateT) by (right; right; left; left; reflexivity). auto.
  - split; [|auto using DateLike_any]. unfold core.
    replace (py_eq b' string_t) with false by (destruct Hb as [->|[z ->]]; reflexivity). rewrite andb_false_r.
    destruct Ha as [->|[z ->]], Hb as [->|[z' ->]]; try reflexivity. destruct Hn; contradiction.
  - split; [|auto using Delta_any]. apply core_unit; auto. unfold common_unit. now rewrite str_eqb_refl.
  - split; [|auto using Delta_any].
    assert (Hc : In w canonical_units).
    { apply (in_map fst) in Hw. unfold unit_lengths in Hw. cbn [map fst] in Hw. cbn [In] in Hw. unfold canonical_units. cbn [In].
      repeat (destruct Hw as [<-|Hw]; [tauto|]). contradiction. }
    apply core_unit; auto. apply (units_table (u, lu) (v, lv) (w, lw)); auto.
  - split; [|auto using Delta_any]. apply core_unit; [now apply months_table|]. vm_compute. tauto.
  - split; [|auto using Text_any]. now rewrite core_text.
  - split; [|auto using Text_any]. rewrite core_text by assumption.
    destruct (str_eqb e _) eqn:E1, (str_eqb f _) eqn:E2; try reflexivity.
    apply str_eqb_eq in E1, E2. tauto.
Qed.
Lemma Unjoined_core a b : Unjoined a b -> core a b = Raise TypeErr /\ (exists u, a = TimeDeltaT u) /\ (exists u, b = TimeDeltaT u).
Proof.
  intros [u v Hu Hv|u v Hu Hv]; (split; [|eauto]); rewrite core_delta.
  - now rewrite calendar_table.
  - rewrite common_unit_comm. now rewrite calendar_table.
Qed.
Lemma promote_core_raise a b e (oa ob po : bool) : is_Option a = false -> is_Option b = false ->
  is_DataShape a = false -> is_DataShape b = false -> core a b = Raise e ->
  (oa = ob -> py_eq a b = false) -> promote (opt_if oa a) (opt_if ob b) po = Raise e.
Proof.
  intros Oa Ob Da Db HC Hne.
  assert (E : py_eq (opt_if oa a) (opt_if ob b) = false).
  { destruct (py_eq (opt_if oa a) (opt_if ob b)) eqn:E; [|reflexivity]. exfalso.
    pose proof E as E'. apply py_eq_option in E'; [|destruct oa; auto|destruct ob; auto].
    assert (oa = ob). { destruct oa, ob; cbn in E'; congruence. } subst ob. specialize (Hne eq_refl).
    destruct oa; cbn [opt_if] in E; [|congruence]. rewrite py_eq_unfold in E. cbn [shape measure list_eqb info_eqb andb] in E. apply andb_true_iff in E. destruct E; congruence. }
  assert (Gt : forall o t, is_Option t = false -> get_ty (opt_if o t) = t).
  { intros o t Ht. destruct o; [reflexivity|]. destruct t; auto; discriminate. }
  unfold promote. rewrite E. unfold core in HC. rewrite !Gt by assumption.
  destruct (py_eq a b && py_eq b string_t); [discriminate|].
  destruct (to_numpy_dtype a) as [l|]; cbn [bind] in HC |- *; [|congruence].
  destruct (to_numpy_dtype b) as [r|]; cbn [bind] in HC |- *; [|congruence].
  destruct (result_type l r) as [d|]; cbn [bind] in HC |- *; [|congruence]. rewrite HC. reflexivity.
Qed.
Lemma unjoined_different a b : Unjoined a b -> py_eq a b = false.
Proof.
  intro H. destruct (py_eq a b) eqn:E; [|reflexivity]. exfalso.
  destruct (Unjoined_core a b H) as [HC [[u ->] [v ->]]]. rewrite py_eq_unfold in E.
  cbn [shape measure list_eqb info_eqb andb] in E. apply str_eqb_eq in E. subst v.
  inversion H as [? ? Hu Hv|? ? Hu Hv]; subst;
    revert Hu Hv; unfold calendar_units, unit_lengths; cbn [map fst In]; intuition (subst; discriminate).
Qed.
Lemma promote_unjoined a b (oa ob po : bool) : Unjoined a b ->
  promote (if oa then OptionT a else a) (if ob then OptionT b else b) po = Raise TypeErr.
Proof.
  intro H. pose proof (unjoined_different a b H) as N. destruct (Unjoined_core a b H) as [HC [[u ->] [v ->]]].
  apply (promote_core_raise (TimeDeltaT u) (TimeDeltaT v) TypeErr oa ob po); auto.
Qed.
Lemma units_cases u v : In u canonical_units -> In v canonical_units ->
  (exists w, Joined (TimeDeltaT u) (TimeDeltaT v) (TimeDeltaT w)) \/ Unjoined (TimeDeltaT u) (TimeDeltaT v).
Proof.
  assert (C : forall w, In w canonical_units -> In w calendar_units \/ In w (map fst unit_lengths)).
  { intros w Hw. unfold canonical_units in Hw. unfold calendar_units, unit_lengths. cbn [map fst In] in *. tauto. }
  intros Hu Hv. destruct (list_eq_dec N.eq_dec u v) as [<-|Hne]; [left; exists u; now constructor|].
  destruct (C u Hu) as [Cu|Cu], (C v Hv) as [Cv|Cv].
  - left. eexists. now apply Joined_calendar.
  - right. now apply Unjoined_left.
  - right. now apply Unjoined_right.
  - apply in_map_iff in Cu as [[u' lu] [E Cu]]. cbn [fst] in E. subst u'.
    apply in_map_iff in Cv as [[v' lv] [E Cv]]. cbn [fst] in E. subst v'. left.
    assert (T : forallb (fun p => 0 <? snd p) unit_lengths = true) by (vm_compute; reflexivity).
    assert (D : forallb (fun p => forallb (fun q => (snd p mod snd q =? 0) || (snd q mod snd p =? 0)) unit_lengths) unit_lengths = true)
      by (vm_compute; reflexivity).
    rewrite forallb_forall in T, D. pose proof (T _ Cu) as Pu. pose proof (T _ Cv) as Pv. cbn [snd] in Pu, Pv.
    apply Z.ltb_lt in Pu, Pv. specialize (D _ Cu). rewrite forallb_forall in D. specialize (D _ Cv). cbn [snd] in D.
    apply orb_true_iff in D as [D|D]; apply Z.eqb_eq, Z.mod_divide in D; try lia.
    + exists v. eapply (Joined_units u v v lu lv lv); auto using Z.divide_refl.
    + exists u. eapply (Joined_units u v u lu lv lu); auto using Z.divide_refl.
Qed.
Lemma promote_joined a b r (oa ob : bool) : Joined a b r -> (oa = ob -> py_eq a b = false) ->
  promote (if oa then OptionT a else a) (if ob then OptionT b else b) true = Ok (if oa || ob then OptionT r else r) /\
  promote (if oa then OptionT a else a) (if ob then OptionT b else b) false = Ok r.
Proof.
  intros HJ Hne. destruct (Joined_core a b r HJ) as (HC & Ha & Hb & Or & Dr).
  destruct (AnyScalar_flat a Ha) as (? & ? & _), (AnyScalar_flat b Hb) as (? & ? & _).
  apply (promote_core a b r oa ob); auto.
Qed.

Lemma promote_units u v po : In u canonical_units -> In v canonical_units ->
  (exists w, Joined (TimeDeltaT u) (TimeDeltaT v) (TimeDeltaT w) /\ promote (TimeDeltaT u) (TimeDeltaT v) po = Ok (TimeDeltaT w)) \/
  (Unjoined (TimeDeltaT u) (TimeDeltaT v) /\ promote (TimeDeltaT u) (TimeDeltaT v) po = Raise TypeErr).
Proof.
  intros Hu Hv. destruct (list_eq_dec N.eq_dec u v) as [<-|Hne].
  - left. exists u. split; [now constructor|]. apply promote_idem.
  - destruct (units_cases u v Hu Hv) as [[w H]|H].
    + left. exists w. split; [exact H|].
      assert (N : py_eq (TimeDeltaT u) (TimeDeltaT v) = false).
      { destruct (py_eq (TimeDeltaT u) (TimeDeltaT v)) eqn:E; [|reflexivity]. exfalso. rewrite py_eq_unfold in E.
        cbn [shape measure list_eqb info_eqb andb] in E. apply str_eqb_eq in E. congruence. }
      destruct (promote_joined _ _ _ false false H (fun _ => N)) as [P1 P2]. destruct po; assumption.
    + right. split; [exact H|]. exact (promote_unjoined _ _ false false po H).
Qed.

(** ** maxtype *)
Lemma ctype_eq n i al m : ~ Lone m -> py_eq (CType n i al) m = true -> m = CType n i al.
Proof.
  intros HL. rewrite py_eq_unfold. cbn [shape measure]. rewrite andb_true_iff. intros [H1 H2].
  assert (HM : measure m = m).
  { destruct m; try reflexivity. cbn in H1 |- *. destruct parameters as [|x [|y ps]]; [reflexivity| |discriminate].
    exfalso. apply HL. eexists _, _. reflexivity. }
  rewrite HM in H2. destruct m; try discriminate. cbn in H2.
  rewrite !andb_true_iff, str_eqb_eq, !Z.eqb_eq in H2. destruct H2 as [[-> ->] ->]. reflexivity.
Qed.
Lemma eq_ctype n i al m : ~ Lone m -> py_eq m (CType n i al) = true -> m = CType n i al.
Proof.
  intros HL H. apply py_eq_split in H as [(v & _ & H)|[(ts & nm & us & _ & H & _)|(_ & H1 & H2)]]; try discriminate.
  cbn [shape measure] in *.
  assert (HM : measure m = m).
  { destruct m; try reflexivity. cbn in H1 |- *. destruct parameters as [|x [|y ps]]; [reflexivity| |discriminate].
    exfalso. apply HL. eexists _, _. reflexivity. }
  rewrite HM in H2. destruct m; try discriminate. cbn in H2.
  rewrite !andb_true_iff, str_eqb_eq, !Z.eqb_eq in H2. destruct H2 as [[-> ->] ->]. reflexivity.
Qed.
Lemma in_scalar m : ~ Lone m -> in_typeset m scalar_l = true -> In m (concat families).
Proof.
  intros HL H. unfold in_typeset in H. apply existsb_exists in H as (x & Hx & E).
  assert (Hc : exists n i al, x = CType n i al).
  { cbn in Hx. repeat destruct Hx as [<-|Hx]; try contradiction; eexists _, _, _; reflexivity. }
  destruct Hc as (n & i & al & ->). apply ctype_eq in E; [|exact HL]. subst m.
  revert Hx. generalize (CType n i al). intros x Hx. cbn in Hx |- *. tauto.
Qed.

(** [maxtype] looks at the measure with its Option removed *)
Definition max_wrap (opt : bool) (t : ty) : ty := if opt then OptionT t else t.
Lemma maxtype_eq ds opt m :
  measure ds = max_wrap opt m -> (opt = false -> is_Option m = false) ->
  maxtype ds =
    let! ok := matches_typeset m scalar_l in
    if negb ok && negb (is_DecTD m) then Raise TypeErr
    else
      let! result :=
        if py_eq m bool_t then Ok bool_t
        else if is_DecTD m then Ok m
        else let! l := supertype m in
             match l with [] => Raise ValueErr | x :: r => Ok (max_itemsize x r) end in
      Ok (max_wrap opt (if opt then launder_ty result else result)).
Proof.
  intros H Ho. unfold maxtype. rewrite H. destruct opt; cbn [max_wrap is_Option get_ty].
  - reflexivity.
  - rewrite Ho by reflexivity. destruct m; try reflexivity. discriminate (Ho eq_refl).
Qed.

Lemma max_widest ds opt m fam :
  measure ds = max_wrap opt m -> In fam families -> In m fam ->
  exists w, maxtype ds = Ok (max_wrap opt w) /\ In w fam /\ forall x, In x fam -> size_of x <= size_of w.
Proof.
  intros H Hf Hm.
  assert (Ho : opt = false -> is_Option m = false).
  { intros _. cbn in Hf. repeat destruct Hf as [<-|Hf]; try contradiction; cbn in Hm;
      repeat destruct Hm as [<-|Hm]; try contradiction; reflexivity. }
  rewrite (maxtype_eq ds opt m H Ho). clear H Ho.
  exists (match fam with [] => m | x :: r => max_itemsize x r end).
  cbn in Hf. repeat destruct Hf as [<-|Hf]; try contradiction; cbn in Hm;
    repeat destruct Hm as [<-|Hm]; try contradiction;
    (split; [destruct opt; vm_compute; reflexivity|]);
    (split; [vm_compute; tauto|]);
    intros x Hx; cbn in Hx; repeat destruct Hx as [<-|Hx]; try contradiction; vm_compute; discriminate.
Qed.

Lemma max_decimal ds opt m : measure ds = max_wrap opt m ->
  ((exists p s, m = DecimalT p s) \/ (exists u, m = TimeDeltaT u)) ->
  maxtype ds = Ok (max_wrap opt m).
Proof.
  intros H Hm.
  rewrite (maxtype_eq ds opt m H); [|destruct Hm as [(p & s & ->)|(u & ->)]; reflexivity].
  destruct Hm as [(p & s & ->)|(u & ->)]; destruct opt; vm_compute; reflexivity.
Qed.

Lemma max_record ds opt fs : measure ds = max_wrap opt (RecordT fs) -> maxtype ds = Raise KeyErr.
Proof.
  intro H. rewrite (maxtype_eq ds opt _ H) by reflexivity.
  unfold matches_typeset.
  replace (in_typeset (RecordT fs) scalar_l) with false; [reflexivity|].
  symmetry. unfold in_typeset. cbn [scalar_l boolean_l numeric_l app existsb].
  repeat (rewrite py_eq_unfold; cbn [shape measure info_eqb list_eqb]). reflexivity.
Qed.

Lemma max_reject ds opt m : WF ds -> measure ds = max_wrap opt m ->
  (opt = false -> is_Option m = false) ->
  ~ In m (concat families) -> is_DecTD m = false -> is_Record m = false -> is_TypeSet m = false ->
  maxtype ds = Raise TypeErr.
Proof.
  intros W H Ho Hf Hd Hr Ht. rewrite (maxtype_eq ds opt _ H Ho).
  assert (Wm0 : WF (measure ds)).
  { destruct ds; try exact W. intros u Hu. apply W. cbn [measure] in Hu.
    assert (HI : Inv (DataShapeT name parameters)) by (apply W; constructor).
    destruct HI as (dims & mm & -> & _). rewrite last_last in Hu.
    eapply Occurs_in; [|exact Hu]. cbn. apply in_or_app. right. left. reflexivity. }
  assert (Wm : WF m).
  { rewrite H in Wm0. destruct opt; [|exact Wm0]. exact (get_ty_WF _ Wm0). }
  assert (HL : ~ Lone m).
  { destruct opt.
    - rewrite H in Wm0. exact (Wm0 _ (Occurs_here _)).
    - cbn in H. subst m. destruct ds; cbn [measure]; try (intros (? & ? & X); discriminate X).
      assert (HI : Inv (DataShapeT name parameters)) by (apply W; constructor).
      destruct HI as (dims & mm & -> & _ & _ & HH). rewrite last_last. apply HH.
      apply in_or_app. right. left. reflexivity. }
  assert (HM : matches_typeset m scalar_l = Ok false).
  { unfold matches_typeset. destruct (in_typeset m scalar_l) eqn:E; [exfalso; apply Hf; now apply in_scalar|].
    assert (Hz : forall p l, ~ Lone p -> p <> bool_t -> match_zip (p :: l) scalar_l = false).
    { intros p l Hp Hb. cbn [scalar_l boolean_l app match_zip bool_t].
      unfold py_ne. rewrite negb_involutive.
      destruct (py_eq p bool_t) eqn:E2; [|reflexivity].
      apply eq_ctype in E2; [contradiction|exact Hp]. }
    assert (Hb : m <> bool_t).
    { intros ->. apply Hf. cbn. auto. }
    assert (Hone : match_zip [m] scalar_l = false) by (apply Hz; assumption).
    destruct m; try discriminate; cbn [py_iter]; unfold bind; try (rewrite Hone; reflexivity).
    assert (HI : Inv (DataShapeT name parameters)) by (apply Wm; constructor).
    destruct HI as (dims & mm & -> & _ & Hdim & HH). destruct dims as [|p dims].
    - exfalso. apply HL. eexists _, _. reflexivity.
    - cbn [app]. rewrite Hz; [reflexivity|apply HH; left; reflexivity|].
      intros ->. apply (Hdim bool_t); [left; reflexivity|constructor]. }
  rewrite HM. unfold bind at 1. cbn [negb andb]. rewrite Hd. reflexivity.
Qed.

(** ** isnumeric *)
Definition numeric_names : list str :=
  [$"int8"; $"int16"; $"int32"; $"int64"; $"uint8"; $"uint16"; $"uint32"; $"uint64";
   $"float16"; $"float32"; $"float64"; $"complex64"; $"complex128";
   $"complex[float32]"; $"complex[float64]"].
Lemma ctype_number n : (exists d, ctype_to_numpy n = Ok d /\ np_is_number d = true) <-> In n numeric_names.
Proof.
  split.
  - intros (d & H & Hn). unfold ctype_to_numpy in H.
    destruct (str_eqb n $"complex[float32]") eqn:E1.
    { apply str_eqb_eq in E1. subst. vm_compute. tauto. }
    destruct (str_eqb n $"complex[float64]") eqn:E2.
    { apply str_eqb_eq in E2. subst. vm_compute. tauto. }
    unfold ctype_np in H.
    repeat (cbn [assoc] in H; match type of H with context [str_eqb n ?k] =>
       destruct (str_eqb n k) eqn:E;
       [apply str_eqb_eq in E; subst n; inversion H; subst d; first [discriminate Hn | vm_compute; tauto] | clear E] end).
    discriminate.
  - intro H. cbn in H. repeat destruct H as [<-|H]; try contradiction;
      (eexists; split; [vm_compute; reflexivity|reflexivity]).
Qed.

Lemma isnumeric_spec ds opt m : measure ds = max_wrap opt m -> (opt = false -> is_Option m = false) ->
  (isnumeric ds = Ok true <->
   (exists n i a, m = CType n i a /\ In n numeric_names)
   \/ (exists p s, m = DecimalT p s /\ (s <> 0 \/ p <= 18))
   \/ (exists u, m = TimeDeltaT u)).
Proof.
  intros H Ho.
  assert (HP : plaunder ds = m).
  { assert (HX : plaunder ds = get_ty (measure ds)) by (destruct ds; reflexivity).
    rewrite HX, H. destruct opt; [reflexivity|]. specialize (Ho eq_refl). destruct m; try reflexivity; discriminate. }
  unfold isnumeric. rewrite HP.
  assert (HN : is_Unit m = false -> (match to_numpy_dtype m with
      | Raise TypeErr => Ok false | Raise e => Raise e
      | Ok d => Ok (is_Unit m && np_is_number d) end) <> Ok true).
  { intros ->. destruct (to_numpy_dtype m) as [d|[]]; discriminate. }
  destruct m;
    try (specialize (HN eq_refl); split;
         [intro X; exfalso; exact (HN X)
         |intros [(? & ? & ? & X & _)|[(? & ? & X & _)|(? & X)]]; discriminate X]);
    clear HN; rewrite plain_tnd by (split; reflexivity).
  all: try (split; [intro X; vm_compute in X; discriminate X
         |intros [(? & ? & ? & X & _)|[(? & ? & X & _)|(? & X)]]; discriminate X]).
  - (* CType *) unfold npmeth. cbn [npmethF tsize is_Unit andb]. split.
    + intro X. left. exists name, itemsize, alignment. split; [reflexivity|].
      apply ctype_number. destruct (ctype_to_numpy name) as [d|e]; [|destruct e; discriminate].
      inversion X. eauto.
    + intros [(n & i & a & X & Hn)|[(? & ? & X & _)|(? & X)]]; try discriminate. inversion X; subst.
      apply ctype_number in Hn as (d & -> & ->). reflexivity.
  - (* TimeDelta *) cbn. split; [eauto|reflexivity].
  - (* String *) unfold npmeth. cbn [npmethF tsize is_Unit andb]. split.
    + unfold string_to_numpy. destruct fixlen as [n|]; [|discriminate].
      destruct (n =? 0); [discriminate|]. destruct ((n <? 0) || (np_maxlen <? n)); [discriminate|].
      destruct (str_eqb encoding $"A"); discriminate.
    + intros [(? & ? & ? & X & _)|[(? & ? & X & _)|(? & X)]]; discriminate X.
  - (* Decimal *) unfold npmeth. cbn [npmethF tsize is_Unit andb]. unfold decimal_to_numpy. split.
    + intro X. right. left. exists precision, scale. split; [reflexivity|].
      destruct (Z.eqb_spec scale 0); [|auto]. right.
      destruct (Z.leb_spec precision 2); [lia|]. destruct (Z.leb_spec precision 4); [lia|].
      destruct (Z.leb_spec precision 9); [lia|]. destruct (Z.leb_spec precision 18); [lia|discriminate].
    + intros [(? & ? & ? & X & _)|[(p & s & X & Hs)|(? & X)]]; try discriminate. inversion X; subst.
      destruct (Z.eqb_spec s 0); [|reflexivity]. destruct Hs as [Hs|Hs]; [contradiction|].
      destruct (Z.leb_spec p 2); [reflexivity|]. destruct (Z.leb_spec p 4); [reflexivity|].
      destruct (Z.leb_spec p 9); [reflexivity|]. destruct (Z.leb_spec p 18); [reflexivity|lia].
Qed.

(** idempotence of maxtype *)
Lemma concat_families m : In m (concat families) <-> exists fam, In fam families /\ In m fam.
Proof. rewrite in_concat. reflexivity. Qed.

Lemma map_get_typeset ts nm : map_get (TypeSetT ts nm) supertype_map = Raise KeyErr.
Proof.
  unfold supertype_map. cbn [map_get].
  repeat (match goal with |- context [py_eq ?x (TypeSetT ts nm)] =>
     replace (py_eq x (TypeSetT ts nm)) with false by (symmetry; rewrite py_eq_unfold; reflexivity) end).
  reflexivity.
Qed.
Lemma max_typeset ds opt ts nm : measure ds = max_wrap opt (TypeSetT ts nm) ->
  maxtype ds = Raise TypeErr \/ maxtype ds = Raise KeyErr.
Proof.
  intro H. rewrite (maxtype_eq ds opt _ H) by reflexivity.
  destruct (matches_typeset (TypeSetT ts nm) scalar_l) as [ok|e] eqn:E.
  - destruct ok; [right|left; reflexivity].
    unfold bind at 1. cbn [negb andb is_DecTD].
    replace (py_eq (TypeSetT ts nm) bool_t) with false by (symmetry; rewrite py_eq_unfold; reflexivity).
    unfold supertype. cbn [get_ty]. rewrite E. unfold bind at 3. rewrite map_get_typeset. reflexivity.
  - unfold matches_typeset in E. destruct (in_typeset _ _); discriminate.
Qed.

Lemma measure_cases t : exists opt m, measure t = max_wrap opt m /\ (opt = false -> is_Option m = false).
Proof.
  destruct (is_Option (measure t)) eqn:E.
  - destruct (measure t) eqn:Em; try discriminate. exists true. eexists. split; [reflexivity|discriminate].
  - exists false, (measure t). auto.
Qed.
Lemma is_DecTD_spec m : is_DecTD m = true -> (exists p s, m = DecimalT p s) \/ (exists u, m = TimeDeltaT u).
Proof. destruct m; try discriminate; eauto. Qed.

Lemma max_family_idem w fam opt : In fam families -> In w fam ->
  (forall x, In x fam -> size_of x <= size_of w) -> maxtype (max_wrap opt w) = Ok (max_wrap opt w).
Proof.
  intros Hf Hw Hmax.
  assert (HM : measure (max_wrap opt w) = max_wrap opt w).
  { destruct opt; [reflexivity|]. cbn in Hf.
    repeat destruct Hf as [<-|Hf]; try contradiction; cbn in Hw;
      repeat destruct Hw as [<-|Hw]; try contradiction; reflexivity. }
  destruct (max_widest _ opt w fam HM Hf Hw) as (w' & H1 & H2 & H3). rewrite H1.
  assert (HE : size_of w' = size_of w) by (apply Z.le_antisymm; auto).
  f_equal. f_equal. clear H1 HM.
  cbn in Hf. repeat destruct Hf as [<-|Hf]; try contradiction; cbn in Hw, H2;
    repeat destruct Hw as [<-|Hw]; try contradiction;
    repeat destruct H2 as [<-|H2]; try contradiction; try reflexivity; vm_compute in HE; discriminate HE.
Qed.

Lemma max_idem ds r : WF ds -> maxtype ds = Ok r -> maxtype r = Ok r.
Proof.
  intros W H. destruct (measure_cases ds) as (opt & m & Hm & Ho).
  destruct (is_Record m) eqn:Er.
  { destruct m; try discriminate. rewrite (max_record ds opt fields Hm) in H. discriminate. }
  destruct (is_TypeSet m) eqn:Et.
  { destruct m; try discriminate. destruct (max_typeset ds opt _ _ Hm) as [X|X]; rewrite X in H; discriminate. }
  destruct (is_DecTD m) eqn:Ed.
  { pose proof (is_DecTD_spec m Ed) as HD. rewrite (max_decimal ds opt m Hm HD) in H. inversion H; subst r.
    apply (max_decimal _ opt m); [|exact HD].
    destruct HD as [(p & s & ->)|(u & ->)]; destruct opt; reflexivity. }
  assert (HIn : In m (concat families) \/ ~ In m (concat families)).
  { assert (D : forall a b : ty, {ct_eqb a b = true} + {ct_eqb a b = false}) by (intros; destruct (ct_eqb a b); auto).
    destruct (existsb (fun x => ct_eqb x m) (concat families)) eqn:E.
    - apply existsb_exists in E as (x & Hx & E). apply ct_eqb_eq in E. subst. auto.
    - right. intro Hx. assert (existsb (fun x => ct_eqb x m) (concat families) = true); [|congruence].
      apply existsb_exists. exists m. split; [exact Hx|]. clear - Hx. cbn in Hx.
      repeat destruct Hx as [<-|Hx]; try contradiction; reflexivity. }
  destruct HIn as [HIn|HIn].
  - apply concat_families in HIn as (fam & Hf & Hmf).
    destruct (max_widest ds opt m fam Hm Hf Hmf) as (w & H1 & H2 & H3). rewrite H1 in H. inversion H; subst r.
    eapply max_family_idem; eassumption.
  - rewrite (max_reject ds opt m) in H by assumption. discriminate.
Qed.
