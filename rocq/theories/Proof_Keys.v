(** C72: [discover] on mappings with keys of several kinds. *)
From Verif Require Import Base Types Lexer Printer Construct Parser Ops Preds Numpy Graph Discovery Keys
  Spec_Eq Spec_WF Spec_Graph Spec_Ops Spec_Discovery Spec_Dicts Spec_Keys Proof_WF Proof_Ops Proof_Graph Proof_Coerce
  Proof_Discovery Proof_Discovery2 Proof_Discovery3 Proof_NpConv Proof_Print.
From Coq Require Import Permutation Sorting.Sorted.
Local Open Scope Z_scope.

(** ** Keys *)
Lemma key_num_Number k z : key_num k = Some z <-> Number k z.
Proof.
  destruct k as [x|[]|s|]; cbn [key_num]; split; intro H; try discriminate; try inversion H; subst; try constructor; reflexivity.
Qed.
Lemma is_num_Number k : is_num k = true <-> exists z, Number k z.
Proof.
  unfold is_num. destruct (key_num k) as [z|] eqn:E; split; intro H; try discriminate; auto.
  - exists z. now apply key_num_Number.
  - destruct H as [z H]. apply key_num_Number in H. congruence.
Qed.
Lemma is_kstr_spec k : is_kstr k = true <-> exists s, k = KyStr s.
Proof. destruct k; cbn; split; intro H; try discriminate; eauto; destruct H as [? H]; discriminate. Qed.
Lemma key_eqb_spec a b : key_eqb a b = true <-> SameKey a b.
Proof.
  unfold key_eqb. split.
  - destruct (key_num a) as [x|] eqn:A.
    + destruct (key_num b) as [y|] eqn:B.
      * intro H. apply Z.eqb_eq in H. subst. apply key_num_Number in A, B. econstructor; eauto.
      * destruct a, b; try discriminate.
    + destruct (key_num b) as [y|] eqn:B; destruct a, b; try discriminate; intro H.
      * apply str_eqb_eq in H. subst. constructor.
      * constructor.
  - intro H. inversion H as [k|p q z H1 H2]; subst.
    + destruct b as [z|[]|s|]; cbn; auto using Z.eqb_refl. now apply str_eqb_eq.
    + apply key_num_Number in H1, H2. rewrite H1, H2. apply Z.eqb_refl.
Qed.
Lemma key_eqb_refl k : key_eqb k k = true.
Proof. apply key_eqb_spec. constructor. Qed.
Lemma Number_fun k x y : Number k x -> Number k y -> x = y.
Proof. rewrite <- !key_num_Number. congruence. Qed.
Lemma SameKey_sym a b : SameKey a b -> SameKey b a.
Proof. intros []; econstructor; eauto. Qed.
Lemma SameKey_trans a b c : SameKey a b -> SameKey b c -> SameKey a c.
Proof.
  intros [k|p q z H1 H2] H; [exact H|]. inversion H as [k|p' q' z' H1' H2']; subst; [econstructor; eauto|].
  rewrite (Number_fun _ _ _ H1' H2) in H2'. econstructor; eauto.
Qed.
Lemma KeyLt_irrefl a b : KeyLt a b -> ~ SameKey a b.
Proof.
  intros [p q x y H1 H2 H|s t H] S.
  - inversion S as [k|p' q' z H1' H2']; subst.
    + rewrite (Number_fun _ _ _ H1 H2) in H. lia.
    + rewrite (Number_fun _ _ _ H1 H1'), (Number_fun _ _ _ H2 H2') in H. lia.
  - inversion S as [k|p' q' z H1' H2']; subst; [exact (StrLt_irrefl _ H)|inversion H1'].
Qed.
Lemma KeyLt_trans a b c : KeyLt a b -> KeyLt b c -> KeyLt a c.
Proof.
  intros [p q x y H1 H2 H|s t H] K; inversion K as [p' q' x' y' H1' H2' H'|s' t' H']; subst.
  - rewrite (Number_fun _ _ _ H2 H1') in H. eapply kl_number; eauto. lia.
  - inversion H2.
  - inversion H1'.
  - constructor. eapply StrLt_trans; eauto.
Qed.

(** ** Names *)
Lemma z2s_inj' a b : z2s a = z2s b -> a = b.
Proof.
  intro H. destruct (Z.le_gt_cases 0 a) as [Ha|Ha]; destruct (Z.le_gt_cases 0 b) as [Hb|Hb].
  - apply z2s_inj; auto.
  - exfalso. destruct b as [|p|p]; try lia. destruct a as [|q|q]; try lia; cbn [z2s] in H; [discriminate|].
    destruct (n2s_spec q) as [_ [_ F]]. rewrite H in F. inversion F. discriminate.
  - exfalso. destruct a as [|p|p]; try lia. destruct b as [|q|q]; try lia; cbn [z2s] in H; [discriminate|].
    destruct (n2s_spec q) as [_ [_ F]]. rewrite <- H in F. inversion F. discriminate.
  - destruct a as [|p|p]; destruct b as [|q|q]; try lia. cbn [z2s] in H. injection H as H.
    change (z2s (Zpos p) = z2s (Zpos q)) in H. apply z2s_inj in H; lia.
Qed.
Lemma z2s_first z : exists c r, z2s z = c :: r /\ (c = 45 \/ is_digit c = true)%N.
Proof.
  destruct z as [|p|p]; cbn [z2s]; eauto.
  destruct (n2s_spec p) as [_ [_ F]]. pose proof (n2s_eval p) as H. destruct (n2s (Npos p)) as [|c r]; [discriminate|].
  inversion F; subst. eauto.
Qed.
Lemma key_str_spec k : KeyName k (key_str k).
Proof. destruct k as [z|[]|s|]; constructor. Qed.
Lemma KeyName_fun k n : KeyName k n -> n = key_str k.
Proof. intros []; reflexivity. Qed.
Lemma number_names a b x y : Number a x -> Number b y -> key_str a = key_str b -> x = y.
Proof.
  intros A B. inversion A; subst; inversion B; subst; cbn [key_str bool_str]; intro H; auto; try discriminate;
    [now apply z2s_inj'| | | |];
  match type of H with
  | z2s ?z = _ => destruct (z2s_first z) as [c [r [E [-> | D]]]]; rewrite E in H; try discriminate; injection H as -> _; discriminate
  | _ = z2s ?z => destruct (z2s_first z) as [c [r [E [-> | D]]]]; rewrite E in H; try discriminate; injection H as <- _; discriminate
  end.
Qed.
Lemma lt_names a b : KeyLt a b -> key_str a <> key_str b.
Proof.
  intros [p q x y H1 H2 H|s t H] E.
  - apply (number_names _ _ _ _ H1 H2) in E. lia.
  - cbn in E. subst. exact (StrLt_irrefl _ H).
Qed.
Lemma sorted_names l : StronglySorted KeyLt l -> NoDup (map key_str l).
Proof.
  induction 1 as [|a l _ IH F]; simpl; constructor; auto. intro Hi. apply in_map_iff in Hi as [b [E Hb]].
  rewrite Forall_forall in F. exact (lt_names _ _ (F _ Hb) (eq_sym E)).
Qed.

(** ** Sorting *)
Section Sorting.
  Context {B : Type}.
  Implicit Types l : list (key * B).
  Lemma insert_kv_perm leb (f : key * B) l : Permutation (insert_kv leb f l) (f :: l).
  Proof.
    induction l as [|g r IH]; simpl; [reflexivity|]. destruct (leb (fst f) (fst g)); [reflexivity|].
    rewrite IH. apply perm_swap.
  Qed.
  Lemma sort_kv_perm leb l : Permutation (fold_right (insert_kv leb) [] l) l.
  Proof. induction l as [|g r IH]; simpl; [reflexivity|]. rewrite insert_kv_perm. now constructor. Qed.
  Variable leb : key -> key -> bool.
  Variable P : key -> Prop.
  Hypothesis Hleb : forall a b, P a -> P b -> ~ SameKey a b -> if leb a b then KeyLt a b else KeyLt b a.
  Lemma insert_kv_Sorted (f : key * B) l : P (fst f) -> Forall P (map fst l) ->
    (forall k, In k (map fst l) -> ~ SameKey (fst f) k) ->
    StronglySorted KeyLt (map fst l) -> StronglySorted KeyLt (map fst (insert_kv leb f l)).
  Proof.
    intro Pf. induction l as [|g r IH]; simpl; intros FP D HS; [repeat constructor|].
    inversion FP as [|? ? Pg FP']; subst. inversion HS as [|? ? HS' F]; subst.
    pose proof (Hleb (fst f) (fst g) Pf Pg (D _ (or_introl eq_refl))) as X. destruct (leb (fst f) (fst g)).
    - simpl. constructor; [exact HS|]. constructor; [exact X|]. eapply Forall_impl; [|exact F].
      intros ? Y. eapply KeyLt_trans; eauto.
    - simpl. constructor; [apply IH; auto|]. rewrite Forall_forall in *. intros k Hk.
      apply (Permutation_in _ (Permutation_map fst (insert_kv_perm leb f r))) in Hk as [<-|Hk]; auto.
  Qed.
  Lemma sort_kv_Sorted l : Forall P (map fst l) -> Different (map fst l) ->
    StronglySorted KeyLt (map fst (fold_right (insert_kv leb) [] l)).
  Proof.
    induction l as [|g r IH]; simpl; intros FP D; [constructor|].
    inversion FP as [|? ? Pg FP']; inversion D as [|? ? D1 D2]; subst.
    apply insert_kv_Sorted; auto.
    - rewrite Forall_forall in *. intros k Hk. apply FP'.
      exact (Permutation_in _ (Permutation_map fst (sort_kv_perm leb r)) Hk).
    - rewrite Forall_forall in D1. intros k Hk. apply D1.
      exact (Permutation_in _ (Permutation_map fst (sort_kv_perm leb r)) Hk).
  Qed.
End Sorting.
Lemma num_leb_ok a b : is_num a = true -> is_num b = true -> ~ SameKey a b -> if num_leb a b then KeyLt a b else KeyLt b a.
Proof.
  rewrite !is_num_Number. intros [x A] [y B] D. unfold num_leb.
  rewrite (proj2 (key_num_Number a x) A), (proj2 (key_num_Number b y) B).
  assert (x <> y) by (intros ->; apply D; econstructor; eauto).
  destruct (Z.leb_spec x y); eapply kl_number; eauto; lia.
Qed.
Lemma kstr_leb_ok a b : is_kstr a = true -> is_kstr b = true -> ~ SameKey a b -> if kstr_leb a b then KeyLt a b else KeyLt b a.
Proof.
  rewrite !is_kstr_spec. intros [s ->] [t ->] D. unfold kstr_leb.
  assert (s <> t) by (intros ->; apply D; constructor).
  destruct (str_leb s t) eqn:E.
  - apply str_leb_StrLt in E as [E|E]; [congruence|now constructor].
  - constructor. destruct (StrLt_total s t) as [L|[L|L]]; auto; [|congruence].
    assert (str_leb s t = true) by (apply str_leb_StrLt; auto). congruence.
Qed.
Lemma Sorted_unique_items {B} (l m : list (key * B)) :
  StronglySorted KeyLt (map fst l) -> StronglySorted KeyLt (map fst m) -> Permutation l m -> l = m.
Proof.
  revert m. induction l as [|x l IH]; intros m HL HM P.
  - apply Permutation_nil in P. now subst.
  - destruct m as [|y m]; [apply Permutation_sym, Permutation_nil in P; discriminate|].
    simpl in HL, HM. inversion HL as [|? ? HL' FL]; inversion HM as [|? ? HM' FM]; subst.
    assert (x = y).
    { assert (In x (y :: m)) as [E|Hx] by (eapply Permutation_in; [exact P|now left]); [auto|].
      assert (In y (x :: l)) as [E|Hy] by (eapply Permutation_in; [symmetry; exact P|now left]); [auto|].
      rewrite Forall_forall in FL, FM. exfalso.
      pose proof (FL _ (in_map fst _ _ Hy)) as A. pose proof (FM _ (in_map fst _ _ Hx)) as A'.
      exact (KeyLt_irrefl _ _ (KeyLt_trans _ _ _ A A') (sk_same _)). }
    subst. f_equal. apply IH; auto. eapply Permutation_cons_inv; eauto.
Qed.
Lemma Sortable_cases l : Different l -> Sortable l ->
  (length l <= 1)%nat \/ forallb is_num l = true \/ forallb is_kstr l = true.
Proof.
  intros D S. destruct l as [|a [|b l]]; [left; simpl; lia|left; simpl; lia|right].
  inversion D as [|? ? D1 _]; subst. rewrite Forall_forall in D1.
  destruct (is_num a) eqn:A.
  - left. apply forallb_forall. intros x [<-|Hx]; [exact A|]. apply is_num_Number in A as [z A].
    destruct (S a x (or_introl eq_refl) (or_intror Hx)) as [E|[E|E]].
    + exfalso. exact (D1 x Hx E).
    + inversion E; subst; [apply is_num_Number; eauto|inversion A].
    + inversion E; subst; [apply is_num_Number; eauto|inversion A].
  - right.
    assert (K : forall x, In x (b :: l) -> is_kstr a = true /\ is_kstr x = true).
    { intros x Hx. destruct (S a x (or_introl eq_refl) (or_intror Hx)) as [E|[E|E]].
      + exfalso. exact (D1 x Hx E).
      + inversion E as [? ? ? ? N|]; subst; [|auto]. exfalso.
        assert (is_num a = true) by (apply is_num_Number; eauto). congruence.
      + inversion E as [? ? ? ? _ N|]; subst; [|auto]. exfalso.
        assert (is_num a = true) by (apply is_num_Number; eauto). congruence. }
    apply forallb_forall. intros x [<-|Hx]; [apply (K b); now left|now apply K].
Qed.
Lemma forallb_fst {B} (p : key -> bool) (l : list (key * B)) : forallb (fun f => p (fst f)) l = forallb p (map fst l).
Proof. induction l; simpl; congruence. Qed.
Lemma py_sorted_ok {B} (l : list (key * B)) : Different (map fst l) -> Sortable (map fst l) ->
  exists m, py_sorted l = Ok m /\ Permutation l m /\ StronglySorted KeyLt (map fst m).
Proof.
  intros D S. destruct l as [|a [|b l]].
  - exists []. split; [reflexivity|]. split; [reflexivity|constructor].
  - exists [a]. split; [reflexivity|]. split; [reflexivity|]. simpl. constructor; constructor.
  - destruct (Sortable_cases _ D S) as [L|[L|L]]; [simpl in L; lia| |].
    + cbn [py_sorted]. rewrite forallb_fst, L. eexists. split; [reflexivity|]. split; [symmetry; apply sort_kv_perm|].
      apply (sort_kv_Sorted _ _ num_leb_ok); [|exact D]. rewrite Forall_forall. rewrite forallb_forall in L. exact L.
    + cbn [py_sorted]. rewrite !forallb_fst, L.
      assert (N : forallb is_num (map fst (a :: b :: l)) = false).
      { cbn [map forallb] in L |- *. apply andb_prop in L as [L _]. destruct (fst a); try discriminate. reflexivity. }
      rewrite N. eexists. split; [reflexivity|]. split; [symmetry; apply sort_kv_perm|].
      apply (sort_kv_Sorted _ _ kstr_leb_ok); [|exact D]. rewrite Forall_forall. rewrite forallb_forall in L. exact L.
Qed.
Lemma py_sorted_fails {B} (l : list (key * B)) : ~ Sortable (map fst l) -> py_sorted l = Raise TypeErr.
Proof.
  intro N. destruct l as [|a [|b l]].
  - exfalso. apply N. intros ? ? [].
  - exfalso. apply N. intros ? ? [<-|[]] [<-|[]]. left. constructor.
  - cbn [py_sorted]. rewrite !forallb_fst. destruct (forallb is_num _) eqn:E1; [|destruct (forallb is_kstr _) eqn:E2; [|reflexivity]].
    + exfalso. apply N. intros x y Hx Hy. rewrite forallb_forall in E1.
      apply E1, is_num_Number in Hx as [p X]. apply E1, is_num_Number in Hy as [q Y].
      destruct (Z.lt_total p q) as [H|[H|H]].
      * right. left. eapply kl_number; eauto.
      * subst. left. econstructor; eauto.
      * right. right. eapply kl_number; eauto.
    + exfalso. apply N. intros x y Hx Hy. rewrite forallb_forall in E2.
      apply E2, is_kstr_spec in Hx as [p ->]. apply E2, is_kstr_spec in Hy as [q ->].
      destruct (StrLt_total p q) as [H|[H|H]].
      * right. left. now constructor.
      * subst. left. constructor.
      * right. right. now constructor.
Qed.

Definition cmpb (a b : key) : bool := (is_num a && is_num b) || (is_kstr a && is_kstr b) || key_eqb a b.
Lemma cmpb_spec a b : cmpb a b = true <-> SameKey a b \/ KeyLt a b \/ KeyLt b a.
Proof.
  unfold cmpb. rewrite !orb_true_iff, !andb_true_iff, !is_num_Number, !is_kstr_spec, key_eqb_spec. split.
  - intros [[[[p X] [q Y]]|[[p ->] [q ->]]]|H]; auto.
    + destruct (Z.lt_total p q) as [H|[H|H]].
      * right. left. eapply kl_number; eauto.
      * subst. left. econstructor; eauto.
      * right. right. eapply kl_number; eauto.
    + destruct (StrLt_total p q) as [H|[H|H]].
      * right. left. now constructor.
      * subst. left. constructor.
      * right. right. now constructor.
  - intros [H|[H|H]]; auto; left; inversion H; subst; eauto.
Qed.
Lemma Sortable_dec l : Sortable l \/ exists a b, In a l /\ In b l /\ ~ SameKey a b /\ ~ KeyLt a b /\ ~ KeyLt b a.
Proof.
  destruct (forallb (fun a => forallb (cmpb a) l) l) eqn:E.
  - left. intros a b Ha Hb. rewrite forallb_forall in E. specialize (E a Ha). rewrite forallb_forall in E.
    apply cmpb_spec. auto.
  - right. destruct (existsb (fun a => existsb (fun b => negb (cmpb a b)) l) l) eqn:X.
    + apply existsb_exists in X as [a [Ha X]]. apply existsb_exists in X as [b [Hb X]].
      apply negb_true_iff in X. exists a, b. split; [exact Ha|]. split; [exact Hb|].
      assert (N : ~ (SameKey a b \/ KeyLt a b \/ KeyLt b a)) by (intro Y; apply cmpb_spec in Y; congruence). tauto.
    + exfalso. apply not_true_iff_false in E. apply E. apply forallb_forall. intros a Ha. apply forallb_forall. intros b Hb.
      destruct (cmpb a b) eqn:C; [reflexivity|]. apply not_true_iff_false in X. elim X.
      apply existsb_exists. exists a. split; [exact Ha|]. apply existsb_exists. exists b. split; [exact Hb|]. now rewrite C.
Qed.
Lemma Sortable_perm l m : Permutation l m -> Sortable l -> Sortable m.
Proof. intros P S a b Ha Hb. apply S; (eapply Permutation_in; [symmetry; exact P|assumption]). Qed.
Lemma Different_perm l m : Permutation l m -> Different l -> Different m.
Proof.
  unfold Different. induction 1 as [|x l m P IH|x y l|]; intro D.
  - exact D.
  - inversion D as [|? ? H1 H2]; subst. constructor; auto. rewrite Forall_forall in *. intros z Hz. apply H1.
    eapply Permutation_in; [symmetry; exact P|exact Hz].
  - inversion D as [|? ? H1 H2]; subst. inversion H2 as [|? ? H3 H4]; subst. inversion H1 as [|? ? H5 H6]; subst. constructor.
    + constructor; auto. intro X. apply H5. now apply SameKey_sym.
    + constructor; auto.
  - auto.
Qed.
Lemma py_sorted_perm {B} (l m : list (key * B)) : Different (map fst l) -> Permutation l m -> py_sorted l = py_sorted m.
Proof.
  intros D P. assert (PM : Permutation (map fst l) (map fst m)) by now apply Permutation_map.
  destruct (Sortable_dec (map fst l)) as [S|[a [b [Ha [Hb [N1 [N2 N3]]]]]]].
  - destruct (py_sorted_ok l D S) as [l' [E1 [P1 S1]]].
    destruct (py_sorted_ok m (Different_perm _ _ PM D) (Sortable_perm _ _ PM S)) as [m' [E2 [P2 S2]]].
    rewrite E1, E2. f_equal. apply Sorted_unique_items; auto. now rewrite <- P1, P, P2.
  - rewrite !py_sorted_fails; [reflexivity| |]; intro S.
    + apply (Sortable_perm _ _ (Permutation_sym PM)) in S. destruct (S a b Ha Hb) as [X|[X|X]]; auto.
    + destruct (S a b Ha Hb) as [X|[X|X]]; auto.
Qed.

(** ** One mapping *)
Section Maps.
  Variables (sc : sched) (so : strings).
  Notation kd := (kdiscover sc so).
  Definition kitems (d : list (key * kval)) := map (fun kv => (fst kv, kd (snd kv))) d.
  Lemma kitems_fst d : map fst (kitems d) = map fst d.
  Proof. unfold kitems. rewrite map_map. reflexivity. Qed.
  Lemma FieldType_launder u : FieldType u (launder_ty u).
  Proof.
    destruct u; try (right; split; [intros ? ? H; discriminate|reflexivity]).
    match goal with |- FieldType (DataShapeT _ ?l) _ => destruct l as [|x [|y r]] end; [right; split; [intros ? ? H; discriminate|reflexivity]| |right; split; [intros ? ? H; discriminate|reflexivity]].
    left. eexists. reflexivity.
  Qed.
  Lemma launder_Ok u : launder no_dsh (PTy u) = Ok (launder_ty u).
  Proof. reflexivity. Qed.
  Definition named (items : list (key * res ty)) : res (list (str * parg)) :=
    mapM (fun kr : key * res ty => let! t := snd kr in Ok (key_str (fst kr), PTy t)) items.
  (** what the generator gives, in terms of [Fields] *)
  Lemma named_Fields d :
    match named (kitems d) with
    | Ok l => exists fs, Fields kd d (Ok fs) /\ map fst fs = map key_str (map fst d) /\ map fst l = map fst fs /\
                mapM (fun f : str * parg => launder no_dsh (snd f)) l = Ok (map snd fs)
    | Raise e => Fields kd d (Raise e)
    end.
  Proof.
    unfold named. induction d as [|[k v] d IH].
    - exists []. split; [constructor|]. split; [reflexivity|]. split; reflexivity.
    - unfold kitems. cbn [map fst snd]. rewrite mapM_cons. cbn [fst snd].
      destruct (kd v) as [u|e] eqn:E; cbn [bind]; [|now constructor].
      fold (kitems d). destruct (mapM _ (kitems d)) as [l|e]; cbn [bind].
      + destruct IH as [fs [H1 [H2 [H3 H4]]]]. exists ((key_str k, launder_ty u) :: fs). split.
        * econstructor; eauto using key_str_spec, FieldType_launder.
        * split; [cbn [map fst]; now rewrite H2|]. split; [cbn [map fst]; now rewrite H3|].
          rewrite mapM_cons. cbn [snd]. rewrite launder_Ok. cbn [bind]. rewrite H4. reflexivity.
      + eapply fi_later; eauto.
  Qed.
  Lemma combine_fst_snd {A B} (l : list (A * B)) : combine (map fst l) (map snd l) = l.
  Proof. induction l as [|[]]; simpl; congruence. Qed.
  Lemma kdiscover_items_spec d :
    (exists fs, Fields kd d (Ok fs) /\ map fst fs = map key_str (map fst d) /\
       ((NoDup (map fst fs) /\ kdiscover_items (kitems d) = Ok (RecordT fs)) \/
        (~ NoDup (map fst fs) /\ kdiscover_items (kitems d) = Raise ValueErr))) \/
    (exists e, Fields kd d (Raise e) /\ kdiscover_items (kitems d) = Raise e).
  Proof.
    pose proof (named_Fields d) as H. unfold kdiscover_items. fold (named (kitems d)).
    destruct (named (kitems d)) as [l|e]; cbn [bind]; [left|right; eauto].
    destruct H as [fs [H1 [H2 [H3 H4]]]]. exists fs. split; [exact H1|]. split; [exact H2|].
    unfold mk_record. rewrite H4. cbn [bind]. rewrite H3.
    destruct (nodup_str (map fst fs)) eqn:N.
    - left. split; [now apply nodup_str_NoDup|]. now rewrite combine_fst_snd.
    - right. split; [|reflexivity]. intro X. apply nodup_str_NoDup in X. congruence.
  Qed.
  Lemma kmap_eq k d : k <> KOrdered -> kd (KMap k d) = let! s := py_sorted (kitems d) in kdiscover_items s.
  Proof. destruct k; intro H; [reflexivity|congruence|reflexivity]. Qed.
  Lemma Permutation_kitems d m : Permutation (kitems d) m -> exists d', m = kitems d' /\ Permutation d d'.
  Proof.
    intro H. apply Permutation_sym in H. unfold kitems in H. apply Permutation_map_inv in H as [d' [E P]]. exists d'. split; auto.
  Qed.
  Theorem kdiscover_dict k d : k <> KOrdered -> Different (map fst d) -> Sortable (map fst d) ->
    exists d', Permutation d d' /\ StronglySorted KeyLt (map fst d') /\
      ((exists fs, Fields kd d' (Ok fs) /\ kd (KMap k d) = Ok (RecordT fs)) \/
       (exists e, Fields kd d' (Raise e) /\ kd (KMap k d) = Raise e)).
  Proof.
    intros Hk D S. rewrite kmap_eq by exact Hk. rewrite <- kitems_fst in D, S.
    destruct (py_sorted_ok (kitems d) D S) as [m [E [P HS]]]. rewrite E. cbn [bind].
    apply Permutation_kitems in P as [d' [-> P]]. rewrite kitems_fst in HS. exists d'. split; [exact P|]. split; [exact HS|].
    destruct (kdiscover_items_spec d') as [[fs [H1 [H2 [[H3 H4]|[H3 H4]]]]]|[e [H1 H2]]]; eauto.
    exfalso. apply H3. rewrite H2. now apply sorted_names.
  Qed.
  Theorem kdiscover_unsortable k d : k <> KOrdered -> ~ Sortable (map fst d) -> kd (KMap k d) = Raise TypeErr.
  Proof.
    intros Hk N. rewrite kmap_eq by exact Hk. rewrite py_sorted_fails; [reflexivity|]. now rewrite kitems_fst.
  Qed.
  Theorem kdiscover_ordered d :
    (exists fs, Fields kd d (Ok fs) /\
       ((NoDup (map fst fs) /\ kd (KMap KOrdered d) = Ok (RecordT fs)) \/
        (~ NoDup (map fst fs) /\ kd (KMap KOrdered d) = Raise ValueErr))) \/
    (exists e, Fields kd d (Raise e) /\ kd (KMap KOrdered d) = Raise e).
  Proof.
    change (kd (KMap KOrdered d)) with (kdiscover_items (kitems d)).
    destruct (kdiscover_items_spec d) as [[fs [H1 [H2 H3]]]|H]; [left; exists fs; auto|right; auto].
  Qed.
  Theorem kdiscover_order k d d' : k <> KOrdered -> Different (map fst d) -> Permutation d d' ->
    kd (KMap k d) = kd (KMap k d').
  Proof.
    intros Hk D P. rewrite !kmap_eq by exact Hk.
    rewrite (py_sorted_perm (kitems d) (kitems d')); [reflexivity|now rewrite kitems_fst|].
    unfold kitems. now apply Permutation_map.
  Qed.
End Maps.

(** ** Sets of keys *)
Lemma add_key_In k s x : In x (add_key k s) <-> In x s \/ (x = k /\ forall g, In g s -> ~ SameKey g k).
Proof.
  induction s as [|g r IH]; simpl.
  - split; [intros [<-|[]]; right; split; [reflexivity|intros ? []]|intros [[]|[-> _]]; now left].
  - destruct (key_eqb g k) eqn:E.
    + simpl. split; [tauto|]. intros [H|[-> H]]; [exact H|]. exfalso. apply key_eqb_spec in E. exact (H g (or_introl eq_refl) E).
    + simpl. rewrite IH. assert (NE : ~ SameKey g k) by (intro X; apply key_eqb_spec in X; congruence). split.
      * intros [H|[H|[-> H]]]; auto. right. split; [reflexivity|]. intros y [<-|Hy]; auto.
      * intros [[H|H]|[-> H]]; auto. right. right. split; [reflexivity|]. intros y Hy. apply H. now right.
Qed.
Lemma add_key_Different k s : Different s -> Different (add_key k s).
Proof.
  unfold Different. induction s as [|g r IH]; simpl; intro D; [repeat constructor|].
  destruct (key_eqb g k) eqn:E; [exact D|]. inversion D as [|? ? D1 D2]; subst. constructor; [|auto].
  rewrite Forall_forall in *. intros y Hy. apply add_key_In in Hy as [Hy|[-> _]]; auto.
  intro X. apply key_eqb_spec in X. congruence.
Qed.
Lemma FirstOf_snoc l k x : FirstOf (l ++ [k]) x <-> FirstOf l x \/ (x = k /\ forall g, In g l -> ~ SameKey g k).
Proof.
  split.
  - intros [p [q [E H]]]. destruct q as [|y q] using rev_ind.
    + apply app_inj_tail in E as [-> ->]. right. auto.
    + clear IHq. rewrite app_comm_cons, app_assoc in E. apply app_inj_tail in E as [-> _]. left. exists p, q. auto.
  - intros [[p [q [-> H]]]|[-> H]].
    + exists p, (q ++ [k]). split; [now rewrite <- app_assoc|exact H].
    + exists l, []. auto.
Qed.
Lemma FirstOf_repr l : forall g, In g l -> exists k, FirstOf l k /\ SameKey k g.
Proof.
  induction l as [|x l IH] using rev_ind; intros g Hg; [destruct Hg|].
  apply in_app_iff in Hg as [Hg|[<-|[]]].
  - destruct (IH g Hg) as [k [H1 H2]]. exists k. split; [apply FirstOf_snoc; auto|exact H2].
  - destruct (existsb (fun y => key_eqb y x) l) eqn:E.
    + apply existsb_exists in E as [y [Hy E]]. apply key_eqb_spec in E. destruct (IH y Hy) as [k [H1 H2]].
      exists k. split; [apply FirstOf_snoc; auto|]. eapply SameKey_trans; eauto.
    + exists x. split; [|constructor]. apply FirstOf_snoc. right. split; [reflexivity|]. intros y Hy X.
      apply not_true_iff_false in E. apply E. apply existsb_exists. exists y. split; [exact Hy|]. now apply key_eqb_spec.
Qed.
Lemma key_set_spec l : Different (key_set l) /\ forall k, In k (key_set l) <-> FirstOf l k.
Proof.
  unfold key_set. induction l as [|x l [D IH]] using rev_ind.
  - split; [constructor|]. intro k. split; [intros []|]. intros [p [q [E _]]]. destruct p; discriminate.
  - rewrite fold_left_app. cbn [fold_left]. split; [now apply add_key_Different|]. intro k.
    rewrite add_key_In, FirstOf_snoc, IH. split; (intros [H|[-> H]]; [auto|]); right; split; auto.
    + intros g Hg X. destruct (FirstOf_repr l g Hg) as [y [Hy Y]]. apply (H y); [now apply IH|]. eapply SameKey_trans; eauto.
    + intros g Hg. apply H. apply IH in Hg as [p [q [-> _]]]. apply in_app_iff. right. now left.
Qed.
Lemma FirstOf_In l k : FirstOf l k -> In k l.
Proof. intros [p [q [-> _]]]. apply in_app_iff. right. now left. Qed.
Lemma Sortable_set l : Sortable (key_set l) <-> Sortable l.
Proof.
  destruct (key_set_spec l) as [_ K]. split; intros S a b Ha Hb.
  - destruct (FirstOf_repr l a Ha) as [a' [A1 A2]]. destruct (FirstOf_repr l b Hb) as [b' [B1 B2]].
    assert (LT : forall x x' y y', SameKey x' x -> SameKey y' y -> KeyLt x' y' -> KeyLt x y).
    { clear. intros x x' y y' X Y H. inversion H as [? ? p q N1 N2 L|s t L]; subst.
      - inversion X as [|? ? z Z1 Z2]; inversion Y as [|? ? w W1 W2]; subst.
        + eapply kl_number; eauto.
        + rewrite (Number_fun _ _ _ N2 W1) in L. eapply kl_number; eauto.
        + rewrite (Number_fun _ _ _ N1 Z1) in L. eapply kl_number; eauto.
        + rewrite (Number_fun _ _ _ N2 W1), (Number_fun _ _ _ N1 Z1) in L. eapply kl_number; eauto.
      - inversion X as [|? ? z Z1 Z2]; [|inversion Z1]. inversion Y as [|? ? w W1 W2]; [|inversion W1]. subst. now constructor. }
    destruct (S a' b' (proj2 (K _) A1) (proj2 (K _) B1)) as [H|[H|H]].
    + left. eapply SameKey_trans; [apply SameKey_sym; exact A2|]. eapply SameKey_trans; eauto.
    + right. left. eapply LT; [exact A2|exact B2|exact H].
    + right. right. eapply LT; [exact B2|exact A2|exact H].
  - apply S; apply FirstOf_In, K; assumption.
Qed.
Lemma keys_fst (l : list key) : map fst (map (fun k => (k, tt)) l) = l.
Proof. rewrite map_map. cbn [fst]. apply map_id. Qed.
Lemma sorted_key_set l : Sortable l -> exists m, py_sorted (map (fun k => (k, tt)) (key_set l)) = Ok m /\
  StronglySorted KeyLt (map fst m) /\ (forall k, In k (map fst m) <-> FirstOf l k).
Proof.
  intro S. destruct (key_set_spec l) as [D K]. 
  destruct (py_sorted_ok (map (fun k => (k, tt)) (key_set l))) as [m [E [P HS]]].
  - now rewrite keys_fst.
  - rewrite keys_fst. now apply Sortable_set.
  - exists m. split; [exact E|]. split; [exact HS|]. intro k. rewrite <- K. apply (Permutation_map fst) in P. rewrite keys_fst in P.
    split; intro H; (eapply Permutation_in; [|exact H]); auto using Permutation_sym.
Qed.
Lemma unsorted_key_set l : ~ Sortable l -> py_sorted (map (fun k => (k, tt)) (key_set l)) = Raise TypeErr.
Proof. intro N. apply py_sorted_fails. rewrite keys_fst. intro S. apply N. now apply Sortable_set. Qed.

(** ** String keys *)
Section Lift.
  Variables (sc : sched) (so : strings).
  Notation kd := (kdiscover sc so).
  Notation disc := (discover sc so).
  Definition lk {B} (d : list (str * B)) : list (key * B) := map (fun kv => (KyStr (fst kv), snd kv)) d.
  Lemma insert_kv_lk {B} (f : str * B) d : insert_kv kstr_leb (KyStr (fst f), snd f) (lk d) = lk (insert_key f d).
  Proof.
    induction d as [|g r IH]; [reflexivity|]. cbn [lk map insert_kv insert_key fst snd kstr_leb].
    destruct (str_leb (fst f) (fst g)); [reflexivity|]. cbn [map]. f_equal. exact IH.
  Qed.
  Lemma sort_lk {B} (d : list (str * B)) : fold_right (insert_kv kstr_leb) [] (lk d) = lk (sort_keys d).
  Proof.
    induction d as [|g r IH]; [reflexivity|]. cbn [lk map fold_right]. fold (lk r). rewrite IH.
    unfold sort_keys. cbn [fold_right]. apply insert_kv_lk.
  Qed.
  Lemma py_sorted_lk {B} (d : list (str * B)) : py_sorted (lk d) = Ok (lk (sort_keys d)).
  Proof.
    rewrite <- sort_lk. destruct d as [|a [|b d]]; [reflexivity|reflexivity|]. cbn [lk map py_sorted].
    cbn [forallb fst is_num key_num andb is_kstr].
    assert (E : forallb (fun f => is_kstr (fst f)) (lk d) = true) by (clear; induction d; simpl; auto).
    unfold lk in E. rewrite E. reflexivity.
  Qed.
  Lemma kdiscover_items_lk d : kdiscover_items (lk d) = discover_items d.
  Proof.
    unfold kdiscover_items, discover_items.
    assert (E : mapM (fun kr : key * res ty => let! t := snd kr in Ok (key_str (fst kr), PTy t)) (lk d) =
            mapM (fun kr : str * res ty => let! t := snd kr in Ok (fst kr, PTy t)) d).
    { clear. induction d as [|[k r] d IH]; [reflexivity|]. cbn [lk map]. rewrite !mapM_cons. cbn [fst snd key_str].
      destruct r; [|reflexivity]. cbn [bind]. fold (lk d). now rewrite IH. }
    now rewrite E.
  Qed.
  Lemma key_get_lk {B} k (d : list (str * B)) : key_get (KyStr k) (lk d) = assoc k d.
  Proof.
    induction d as [|[g r] d IH]; [reflexivity|]. cbn [lk map key_get fst snd assoc]. fold (lk d).
    unfold key_eqb. cbn [key_num]. 
    assert (str_eqb g k = str_eqb k g).
    { destruct (str_eqb g k) eqn:E1, (str_eqb k g) eqn:E2; auto;
      [apply str_eqb_eq in E1|apply str_eqb_eq in E2]; subst; rewrite (proj2 (str_eqb_eq _ _) eq_refl) in *; discriminate. }
    rewrite H. destruct (str_eqb k g); auto.
  Qed.
  Lemma Sortable_strings l : Sortable (map KyStr l).
  Proof.
    intros a b Ha Hb. apply in_map_iff in Ha as [s [<- _]]. apply in_map_iff in Hb as [t [<- _]]. apply cmpb_spec. reflexivity.
  Qed.
  Lemma lt_strings l : StronglySorted KeyLt (map KyStr l) -> SortedStrs l.
  Proof.
    induction l as [|s l IH]; simpl; intro H; [constructor|]. inversion H as [|? ? H1 H2]; subst. constructor; [now apply IH|].
    rewrite Forall_forall in *. intros t Ht. specialize (H2 _ (in_map KyStr _ _ Ht)).
    inversion H2 as [? ? ? ? N|]; subst; [inversion N|assumption].
  Qed.
  Lemma sorted_set_lk l m : py_sorted (map (fun k => (k, tt)) (key_set (map KyStr l))) = Ok m ->
    map fst m = map KyStr (sorted_set l).
  Proof.
    intro E. destruct (sorted_key_set (map KyStr l) (Sortable_strings l)) as [m' [E' [HS K]]].
    rewrite E in E'. injection E' as <-.
    assert (X : exists n, map fst m = map KyStr n).
    { assert (F : forall k, In k (map fst m) -> exists s, k = KyStr s).
      { intros k Hk. apply K, FirstOf_In in Hk. apply in_map_iff in Hk as [s [<- _]]. eauto. }
      clear - F. induction (map fst m) as [|k r IH]; [exists []; reflexivity|].
      destruct (F k (or_introl eq_refl)) as [s ->]. destruct IH as [n ->]; [intros x Hx; apply F; now right|].
      exists (s :: n). reflexivity. }
    destruct X as [n X]. rewrite X in *. f_equal. apply Sorted_unique; [now apply lt_strings|apply sorted_set_Sorted|].
    intro x. rewrite sorted_set_In. split; intro H.
    - assert (Hx : In (KyStr x) (map KyStr n)) by now apply in_map. apply K, FirstOf_In in Hx.
      apply in_map_iff in Hx as [y [Ey Hy]]. injection Ey as ->. exact Hy.
    - destruct (FirstOf_repr (map KyStr l) (KyStr x) (in_map KyStr _ _ H)) as [k [H1 H2]]. apply K in H1.
      inversion H2 as [|? ? z _ N]; subst; [|inversion N]. apply in_map_iff in H1 as [y [Ey Hy]]. injection Ey as ->. exact Hy.
  Qed.
  Lemma keys_lk {B} (ds : list (list (str * B))) : flat_map (map fst) (map lk ds) = map KyStr (flat_map (map fst) ds).
  Proof.
    induction ds as [|d ds IH]; [reflexivity|]. cbn [map flat_map]. rewrite map_app, IH. f_equal.
    unfold lk. rewrite !map_map. reflexivity.
  Qed.
  Lemma mapM_map {A B C} (f : B -> res C) (g : A -> B) l : mapM f (map g l) = mapM (fun x => f (g x)) l.
  Proof. induction l as [|x l IH]; [reflexivity|]. cbn [map]. rewrite !mapM_cons. now rewrite IH. Qed.
  Lemma mapM_same {A B} (f g : A -> res B) l : (forall x, f x = g x) -> mapM f l = mapM g l.
  Proof. intro H. induction l as [|x l IH]; [reflexivity|]. rewrite !mapM_cons. now rewrite H, IH. Qed.
  Lemma kdiscover_dicts_lk ds fallback :
    kdiscover_dicts sc (map lk ds) fallback = on_attribute_error (discover_dicts sc ds) fallback.
  Proof.
    unfold kdiscover_dicts. rewrite keys_lk.
    destruct (sorted_key_set _ (Sortable_strings (flat_map (map fst) ds))) as [m [E _]]. rewrite E. cbn [bind].
    rewrite (sorted_set_lk _ _ E). f_equal. unfold kdict_columns, discover_dicts. set (keys := sorted_set _).
    rewrite mapM_map.
    rewrite (mapM_same _ (fun k => column_type sc (map (get_or_null k) ds))).
    2:{ intro k. f_equal. rewrite map_map. apply map_ext. intro d. unfold kget_or_null, get_or_null. now rewrite key_get_lk. }
    destruct (mapM _ keys) as [types|e]; [|reflexivity]. cbn [bind].
    assert (X : map (fun kt : key * ty => (key_str (fst kt), PTy (snd kt))) (combine (map KyStr keys) types) =
                map (fun kt : str * ty => (fst kt, PTy (snd kt))) (combine keys types)).
    { clear. revert types. induction keys as [|k keys IH]; intros [|t ts]; simpl; try reflexivity. f_equal. apply IH. }
    rewrite X. unfold len. now rewrite map_length.
  Qed.
  Lemma all_some_map {A B} (f : A -> B) l : all_some (map (option_map f) l) = option_map (map f) (all_some l).
  Proof. induction l as [|[x|] l IH]; simpl; auto. rewrite IH. now destruct (all_some l). Qed.
  Lemma kdiscover_seq_lk own rows dicts :
    kdiscover_seq sc own rows (map (option_map lk) dicts) = discover_seq sc own rows dicts.
  Proof.
    unfold kdiscover_seq, discover_seq. destruct own as [|o own]; [reflexivity|]. rewrite all_some_map.
    destruct (all_some dicts) as [ds|]; [|reflexivity]. cbn [option_map]. rewrite kdiscover_dicts_lk. reflexivity.
  Qed.

  Definition krow (x : kval) := match x with
    | KSeq KList l2 | KSeq KTuple l2 => Some (map kd l2)
    | KV (DSeq KList l2) | KV (DSeq KTuple l2) => Some (map disc l2)
    | _ => None end.
  Definition kdict (x : kval) := match x with
    | KMap KDict d | KMap KOrdered d => Some (map (fun kv => (fst kv, kd (snd kv))) d)
    | KV (DMap KDict d) | KV (DMap KOrdered d) => Some (map (fun kv => (KyStr (fst kv), disc (snd kv))) d)
    | _ => None end.
  Lemma kseq_eq k l : kd (KSeq k l) = kdiscover_seq sc (map kd l) (map krow l) (map kdict l).
  Proof. reflexivity. Qed.
  Definition Deep (v : dval) : Prop := kd (lift v) = disc v /\
    match v with DSeq _ l => Forall (fun x => kd (lift x) = disc x) l
               | DMap _ d => Forall (fun kv => kd (lift (snd kv)) = disc (snd kv)) d | _ => True end.
  Lemma map_lift l : Forall (fun x => kd (lift x) = disc x) l -> map kd (map lift l) = map disc l.
  Proof. induction 1 as [|x l H _ IH]; simpl; congruence. Qed.
  Lemma items_lift d : Forall (fun kv => kd (lift (snd kv)) = disc (snd kv)) d ->
    map (fun kv => (fst kv, kd (snd kv))) (map (fun kv => (KyStr (fst kv), lift (snd kv))) d) = lk (items sc so d).
  Proof.
    unfold lk, items. rewrite !map_map. cbn [fst snd]. induction 1 as [|x d H _ IH]; simpl; congruence.
  Qed.
  Lemma lift_deep v : Deep v.
  Proof.
    induction v as [v Hv|k l F|k d F] using dval_ind'.
    - split; [|destruct v; auto; contradiction]. destruct v; try reflexivity; contradiction.
    - assert (F1 : Forall (fun x => kd (lift x) = disc x) l) by (eapply Forall_impl; [|exact F]; intros ? [? _]; auto).
      split; [|exact F1]. cbn [lift]. rewrite kseq_eq, discover_seq_eq, <- kdiscover_seq_lk. rewrite map_lift by exact F1. f_equal.
      + rewrite map_map. apply map_ext_in. intros x Hx. rewrite Forall_forall in F. destruct (F _ Hx) as [_ H].
        destruct x; try reflexivity. destruct k0; cbn [lift krow row_of]; try reflexivity; now rewrite map_lift.
      + rewrite !map_map. apply map_ext_in. intros x Hx. rewrite Forall_forall in F. destruct (F _ Hx) as [_ H].
        destruct x; try reflexivity. destruct k0; cbn [lift kdict dict_of option_map]; try reflexivity; now rewrite items_lift.
    - assert (F1 : Forall (fun kv => kd (lift (snd kv)) = disc (snd kv)) d) by (eapply Forall_impl; [|exact F]; intros ? [? _]; auto).
      split; [|exact F1]. cbn [lift]. destruct k.
      + change (kd (KMap KDict ?x)) with (let! s := py_sorted (kitems sc so x) in kdiscover_items s).
        unfold kitems. rewrite items_lift by exact F1. rewrite py_sorted_lk. cbn [bind]. apply kdiscover_items_lk.
      + change (kd (KMap KOrdered ?x)) with (kdiscover_items (kitems sc so x)).
        unfold kitems. rewrite items_lift by exact F1. apply kdiscover_items_lk.
      + change (kd (KMap KProxy ?x)) with (let! s := py_sorted (kitems sc so x) in kdiscover_items s).
        unfold kitems. rewrite items_lift by exact F1. rewrite py_sorted_lk. cbn [bind]. apply kdiscover_items_lk.
  Qed.
  Theorem kdiscover_lift v : kd (lift v) = disc v.
  Proof. apply lift_deep. Qed.
End Lift.
