(** C72: what [discover] finds in values with keys of several kinds is well-formed, concrete and
    printable. *)
From Verif Require Import Base Types Lexer Printer Construct Parser Ops Preds Numpy Graph Discovery Keys
  Spec_Eq Spec_WF Spec_Graph Spec_Ops Spec_Discovery Spec_Dicts Spec_Found Spec_Lexer Spec_Print Spec_Keys Proof_WF Proof_Eq Proof_Parser
  Proof_Ops Proof_Graph Proof_Coerce Proof_Discovery Proof_Discovery2 Proof_Discovery4 Proof_Time Proof_Discovery6
  Proof_Discovery7 Proof_Keys.
From Coq Require Import Permutation.
Local Open Scope Z_scope.

Section KvalInd.
  Variable P : kval -> Prop.
  Hypothesis Hv : forall v, P (KV v).
  Hypothesis Hseq : forall k l, Forall P l -> P (KSeq k l).
  Hypothesis Hmap : forall k l, Forall (fun kv => P (snd kv)) l -> P (KMap k l).
  Fixpoint kval_ind' (v : kval) : P v :=
    match v with
    | KV v => Hv v
    | KSeq k l => Hseq k l ((fix go (l : list kval) : Forall P l :=
        match l with [] => Forall_nil P | x :: r => @Forall_cons kval P x r (kval_ind' x) (go r) end) l)
    | KMap k l => Hmap k l ((fix go (l : list (key * kval)) : Forall (fun kv => P (snd kv)) l :=
        match l with
        | [] => Forall_nil _
        | x :: r => @Forall_cons (key * kval) (fun kv => P (snd kv)) x r (kval_ind' (snd x)) (go r)
        end) l)
    end.
End KvalInd.

Section Finds.
  Variables (PN : str -> Prop) (sc : sched) (so : strings).
  Hypothesis Hso : dates_ok so.
  Notation kd := (kdiscover sc so).
  Notation D := (D PN (fun _ => True)).
  Definition LFT (t : ty) (_ : Known t) : True := I.
  Definition kitem_ok (kr : key * res ty) : Prop := PN (key_str (fst kr)) /\ okR D (snd kr).

  Lemma py_sorted_okR {B} (Q : key * B -> Prop) l : Forall Q l -> okR (Forall Q) (py_sorted l).
  Proof.
    intro H. assert (X : forall leb, Forall Q (fold_right (insert_kv leb) [] l)).
    { intro leb. rewrite Forall_forall in *. intros x Hx. apply H. exact (Permutation_in _ (sort_kv_perm leb l) Hx). }
    destruct l as [|a [|b l]]; [exact H|exact H|]. cbn [py_sorted].
    destruct (forallb _ _); [apply X|]. destruct (forallb _ _); [apply X|exact I].
  Qed.
  Lemma kitems_okR l : Forall kitem_ok l -> okR D (kdiscover_items l).
  Proof.
    intro H. unfold kdiscover_items. eapply okR_bind.
    - apply okR_mapM. intros kr Hk. rewrite Forall_forall in H. destruct (H kr Hk) as [H1 H2]. eapply okR_bind; [exact H2|].
      intros t Ht. instantiate (1 := fun f => PN (fst f) /\ exists t, snd f = PTy t /\ D t). cbn. eauto.
    - intros fs Hfs. eapply okR_mono; [|apply (mk_record_okR PN (fun _ => True)); exact Hfs]. intros r [Hr _]. left; auto.
  Qed.
  Lemma kdicts_okR ds fb : Forall (Forall kitem_ok) ds -> okR D fb -> okR D (kdiscover_dicts sc ds fb).
  Proof.
    intros H Hfb. unfold kdiscover_dicts. 
    assert (HK : Forall (fun kt : key * unit => PN (key_str (fst kt))) (map (fun k => (k, tt)) (key_set (flat_map (map fst) ds)))).
    { apply Forall_map, Forall_forall. intros k Hk. cbn [fst]. apply (proj2 (key_set_spec _)), FirstOf_In in Hk.
      apply in_flat_map in Hk as [d [Hd Hk]]. rewrite Forall_forall in H. specialize (H d Hd). rewrite Forall_forall in H.
      apply in_map_iff in Hk as [kr [<- Hk]]. apply (H kr Hk). }
    eapply okR_bind; [apply py_sorted_okR; exact HK|]. intros ks Hks. apply on_attr_okR; [|exact Hfb].
    unfold kdict_columns. eapply okR_bind.
    - apply okR_mapM. intros k _. apply (column_okR PN (fun _ => True) LFT). apply Forall_map. eapply Forall_impl; [|exact H].
      intros d Hd. unfold kget_or_null. destruct (key_get k d) as [r|] eqn:E; [|left; apply DM_null; exact (fun _ _ => I)].
      assert (Hin : exists k', In (k', r) d).
      { clear -E. induction d as [|[g s] d IH]; [discriminate|]. cbn [key_get fst snd] in E. destruct (key_eqb g k).
        - injection E as ->. exists g. now left.
        - destruct (IH E) as [k' H]. exists k'. now right. }
      destruct Hin as [k' Hin]. rewrite Forall_forall in Hd. apply (Hd _ Hin).
    - intros ts Hts. eapply okR_bind; [apply (mk_record_okR PN (fun _ => True))|].
      + apply Forall_forall. intros f Hf. apply in_map_iff in Hf as [[k t] [<- Hf]]. cbn [fst snd]. split.
        * apply in_combine_l in Hf. apply in_map_iff in Hf as [kt [<- Hf]]. rewrite Forall_forall in Hks. apply (Hks _ Hf).
        * apply in_combine_r in Hf. rewrite Forall_forall in Hts. eauto.
      + intros r [Hr _]. apply mul_int_okR; [left; auto|apply len_nonneg].
  Qed.
  Lemma kseq_okR own rows dicts : Forall (okR D) own ->
    (forall r, In (Some r) rows -> Forall (okR D) r) -> (forall d, In (Some d) dicts -> Forall kitem_ok d) ->
    okR D (kdiscover_seq sc own rows dicts).
  Proof.
    intros H1 H2 H3. unfold kdiscover_seq. destruct own as [|x own].
    { apply mul_ty_okR; [constructor|]. left. apply DM_string_t. exact (fun _ _ => I). }
    set (fb := let! types := mapM (fun r => r) (x :: own) in unite_final types).
    assert (HF : okR D fb).
    { eapply okR_bind; [apply okR_mapM; rewrite Forall_forall in H1; exact H1|]. intros ts Hts. apply (unite_final_okR PN (fun _ => True)); auto. }
    clearbody fb.
    assert (HS : okR D match all_some dicts with Some ds => kdiscover_dicts sc ds fb | None => fb end).
    { destruct (all_some dicts) as [ds|] eqn:E; auto. apply kdicts_okR; auto.
      apply Forall_forall. intros d Hd. apply H3. eapply all_some_In; eauto. }
    destruct (all_some rows) as [rs|] eqn:E; auto. destruct (same_lengths rs); auto. apply on_attr_okR; auto.
    apply (discover_rows_okR PN (fun _ => True) LFT). apply Forall_forall. intros r Hr. apply H2. eapply all_some_In; eauto.
  Qed.
  Definition NVK (v : kval) : Prop := forall n, KKeyOf n v -> PN n.
  Definition PK (v : kval) : Prop := NVK v -> okR D (kd v).
  Definition QK (v : kval) : Prop := PK v /\
    match v with KSeq _ l => Forall PK l | KMap _ d => Forall (fun kv => PK (snd kv)) d | _ => True end.
  Lemma kseq_ok k l : NVK (KSeq k l) -> Forall PK l -> Forall (okR D) (map kd l).
  Proof.
    intros HN H. rewrite Forall_forall in H. apply Forall_map, Forall_forall. intros x Hx. apply H; auto.
    intros n Hn. apply HN. eapply kk_seq; eauto.
  Qed.
  Lemma kitems_ok k d : NVK (KMap k d) -> Forall (fun kv => PK (snd kv)) d -> Forall kitem_ok (map (fun kv => (fst kv, kd (snd kv))) d).
  Proof.
    intros HN H. rewrite Forall_forall in H. apply Forall_map, Forall_forall. intros [a x] Hx. split.
    - apply HN. eapply kk_here; [exact Hx|apply key_str_spec].
    - apply (H _ Hx). intros n Hn. apply HN. eapply kk_map; eauto.
  Qed.
  Lemma value_ok v : (forall n, KeyOf n v -> PN n) -> okR D (discover sc so v).
  Proof. exact (All_ok PN sc so Hso v). Qed.
  Theorem kdiscover_QK : forall v, QK v.
  Proof.
    apply kval_ind'.
    - intro v. split; [|exact I]. intro HN. apply value_ok. intros n Hn. apply HN. now constructor.
    - intros k l HQ. assert (HP : Forall PK l) by (eapply Forall_impl; [|exact HQ]; intros ? [? _]; auto).
      split; [|exact HP]. intro HN. cbn [kdiscover]. rewrite Forall_forall in HQ. apply kseq_okR.
      + eapply kseq_ok; eauto.
      + intros r Hr. apply in_map_iff in Hr as [x [E Hx]]. specialize (HQ x Hx) as [_ HQ].
        assert (HNx : NVK x) by (intros n Hn; apply HN; eapply kk_seq; eauto).
        destruct x as [v|k0 l0|k0 l0]; [|destruct k0; try discriminate; injection E as <-; eapply kseq_ok; eauto|discriminate].
        assert (HV : forall k1 l1, v = DSeq k1 l1 -> Forall (okR D) (map (discover sc so) l1)).
        { intros k1 l1 ->. apply Forall_map, Forall_forall. intros y Hy. apply value_ok. intros n Hn. apply HNx. constructor.
          eapply KeyOf_seq; eauto. }
        destruct v; try discriminate. destruct k0; try discriminate; injection E as <-; eapply HV; reflexivity.
      + intros d Hd. apply in_map_iff in Hd as [x [E Hx]]. specialize (HQ x Hx) as [_ HQ].
        assert (HNx : NVK x) by (intros n Hn; apply HN; eapply kk_seq; eauto).
        destruct x as [v|k0 l0|k0 l0]; [|discriminate|destruct k0; try discriminate; injection E as <-; eapply kitems_ok; eauto].
        assert (HV : forall k1 l1, v = DMap k1 l1 -> Forall kitem_ok (map (fun kv => (KyStr (fst kv), discover sc so (snd kv))) l1)).
        { intros k1 l1 ->. apply Forall_map, Forall_forall. intros [m y] Hy. split; cbn [fst snd key_str].
          - apply HNx. constructor. eapply KeyOf_here; eauto.
          - apply value_ok. intros n Hn. apply HNx. constructor. eapply KeyOf_map; eauto. }
        destruct v; try discriminate. destruct k0; try discriminate; injection E as <-; eapply HV; reflexivity.
    - intros k l HQ. assert (HP : Forall (fun kv => PK (snd kv)) l) by (eapply Forall_impl; [|exact HQ]; intros ? [? _]; auto).
      split; [|exact HP]. intro HN. cbn [kdiscover]. pose proof (kitems_ok k l HN HP) as HI.
      destruct k; [|apply kitems_okR; auto|]; (eapply okR_bind; [apply (py_sorted_okR kitem_ok); exact HI|]; apply kitems_okR).
  Qed.
End Finds.
Theorem kdiscover_finds sc so v : dates_ok so -> KFinds v (kdiscover sc so v).
Proof.
  intro Hso. pose proof (proj1 (kdiscover_QK (fun n => KKeyOf n v) sc so Hso v) (fun n H => H)) as H.
  destruct (kdiscover sc so v) as [t|e]; [|exact H]. cbn [okR] in H. split; [eapply D_WF; eauto|].
  split; [apply (D_facts _ _ _ H)|]. split.
  - intros u Hu. destruct (D_occurs _ _ _ Hu (or_introl H)) as [X|X]; [eapply D_DataType; eauto|apply DDim_DataType; auto].
  - intros fs n Ho Hn. apply (D_names _ _ _ _ H Ho Hn).
Qed.
Theorem kdiscover_roundtrip sc so E v t : dates_ok so -> disc_ok E ->
  (forall n, KKeyOf n v -> PrintableName (e_uni E) n) -> kdiscover sc so v = Ok t ->
  exists t', dshape E (py_str (e_uni E) t) = Ok t' /\ py_eq t' t = true /\ py_eq t t' = true.
Proof.
  intros Hso HE HP H. pose proof (proj1 (kdiscover_QK (fun n => KKeyOf n v) sc so Hso v) (fun n H => H)) as HD.
  rewrite H in HD. exact (D_roundtrip (fun n => KKeyOf n v) E t HE HP HD).
Qed.
(** numbers and None make names that can be printed; bools do not *)
Lemma digit_not_first c : is_digit c = true -> (is_lower c || is_upper c || N.eqb 95 c) = false.
Proof.
  unfold is_digit, is_lower, is_upper, in_range. intro H. apply andb_prop in H as [H1 H2]. apply N.leb_le in H1, H2.
  rewrite !orb_false_iff, !andb_false_iff, !N.leb_gt, N.eqb_neq. lia.
Qed.
Lemma digit_quotable U c : is_digit c = true -> QuotableChar U c.
Proof. unfold is_digit, in_range. intro H. apply andb_prop in H as [H1 H2]. apply N.leb_le in H1, H2. left. lia. Qed.
Lemma first_not_ident c r : (is_lower c || is_upper c || N.eqb 95 c) = false -> ~ Ident (c :: r).
Proof. intros E H. unfold Ident in H. inversion H; subst. cbn beta in *. congruence. Qed.
Lemma number_printable U z : PrintableName U (z2s z).
Proof.
  assert (HQ : Quotable U (z2s z) /\ exists c r, z2s z = c :: r /\ (is_lower c || is_upper c || N.eqb 95 c) = false).
  { destruct z as [|p|p]; cbn [z2s].
    - split; [constructor; [apply digit_quotable; reflexivity|constructor]|]. eexists _, _. split; reflexivity.
    - destruct (Proof_Print.n2s_spec p) as [_ [_ F]]. split.
      + eapply Forall_impl; [|exact F]. intros a H. now apply digit_quotable.
      + destruct (z2s_first (Zpos p)) as [c [r [E [-> | Hc]]]]; cbn [z2s] in E; (eexists _, _; split; [exact E|]); [reflexivity|now apply digit_not_first].
    - destruct (Proof_Print.n2s_spec p) as [_ [_ F]]. split.
      + constructor; [left; lia|]. eapply Forall_impl; [|exact F]. intros a H. now apply digit_quotable.
      + eexists _, _. split; reflexivity. }
  destruct HQ as [HQ [c [r [E Hc]]]]. right. split; [|split; [|exact HQ]].
  - rewrite E. now apply first_not_ident.
  - intros m Em. rewrite E in Em. destruct m as [|d m]; [intro H; inversion H|]. cbn [app] in Em. injection Em as <- _.
    now apply first_not_ident.
Qed.
Lemma none_printable U : PrintableName U $"None".
Proof.
  left. split.
  - unfold Ident. constructor; [reflexivity|]. repeat (apply Forall_cons; [reflexivity|]). constructor.
  - intros [[r H]|[r H]]; discriminate.
Qed.
