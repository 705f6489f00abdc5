(** C49: arrays with their contents. *)
From Verif Require Import Base Types Lexer Printer Construct Parser Ops Preds Numpy Graph Discovery Arrays
  Spec_Found Spec_Arrays Spec_Numpy Proof_Numpy Proof_Discovery9.
Local Open Scope Z_scope.

Lemma is_str_spec v : is_str v = true <-> IsText v.
Proof. destruct v; cbn; split; intro H; try discriminate; try (eexists; reflexivity); try reflexivity; destruct H as [? H]; discriminate. Qed.
Lemma forallb_firstn {A} (p : A -> bool) n l :
  forallb p (firstn n l) = true <-> forall i v, (i < n)%nat -> nth_error l i = Some v -> p v = true.
Proof.
  revert l. induction n as [|n IH]; intro l; [simpl; split; auto; intros; lia|].
  destruct l as [|x l]; [simpl; split; auto; intros _ [|i] v _ H; discriminate|].
  cbn [firstn forallb]. rewrite andb_true_iff, IH. split.
  - intros [H1 H2] [|i] v Hi E; [injection E as <-; exact H1|]. apply (H2 i v); [lia|exact E].
  - intro H. split; [exact (H O x ltac:(lia) eq_refl)|]. intros i v Hi E. apply (H (S i) v); [lia|exact E].
Qed.
Lemma is_string_array_spec l : is_string_array l = true <-> LooksText l.
Proof.
  unfold is_string_array, LooksText. rewrite forallb_firstn. split; intros H i v Hi E.
  - apply is_str_spec. eauto.
  - apply is_str_spec. eauto.
Qed.
Lemma text_column_Column (strs : option str -> bool) c l t t' : (strs c = true <-> LooksText l) ->
  text_column strs c t t' -> Column l t t'.
Proof.
  intros X [[-> [H ->]]|[H ->]].
  - constructor. now apply X.
  - assert (D : t = object_t \/ t <> object_t).
    { unfold object_t. destruct t as [name i a| | | | | | | | | | | | | | | | | | | | | | ]; try (right; discriminate).
      destruct (list_eq_dec N.eq_dec name $"object") as [->|]; [|right; intro Y; injection Y; auto].
      destruct (Z.eq_dec i 8) as [->|]; [|right; intro Y; injection Y; auto].
      destruct (Z.eq_dec a 8) as [->|]; [now left|right; intro Y; injection Y; auto]. }
    destruct D as [->|D]; [|now constructor]. apply co_object. intro Y. apply X in Y. rewrite (H eq_refl) in Y. discriminate.
Qed.
Theorem discover_content sc so shp dt c m : from_numpy [] dt = Ok m -> Forall (fun z => 0 <= z) shp ->
  exists t, discover_ndarray sc so shp dt c = Ok t /\ shape t = map FixedT shp /\ Measures c m (measure t).
Proof.
  intros H Hs. unfold discover_ndarray. match goal with |- context [DArr shp dt ?f] => set (strs := f) end.
  destruct (Proof_Discovery9.discover_array sc so shp dt strs m H Hs) as [t [H1 [H2 H3]]]. exists t. split; [exact H1|]. split; [exact H2|].
  destruct H3 as [fs gs F|m m' N T].
  - constructor. clear - F. induction F as [|f g fs gs [E T] _ IH]; constructor; [|exact IH]. split; [exact E|].
    eapply text_column_Column; [|exact T]. apply is_string_array_spec.
  - constructor 2; [exact N|]. eapply text_column_Column; [|exact T]. apply is_string_array_spec.
Qed.

