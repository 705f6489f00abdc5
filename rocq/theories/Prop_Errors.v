(** C67: which exceptions [dshape] raises on a text. *)
From Verif Require Import Base Types Lexer Construct Parser Discovery Spec_Discovery Spec_Preds Spec_Found Proof_Parser Proof_Discovery7
  Proof_Discovery8 Spec_Errors Proof_Errors Proof_Errors2 Tests_Parser Tests_Discovery.

(** C67. On any text, [dshape] raises DataShapeSyntaxError, one of six other exceptions, or what
    [discover] raises on the categories of a [categorical] ([NotModelled]: arguments of types the
    model leaves out, see the comments in Construct.v). *)
Theorem C67_errors : forall E s e, disc_ok E -> dshape E s = Raise e ->
  (exists p m, e = SyntaxErr p m) \/ In e [TypeErr; ValueErr; IndexErr; AttributeErr; NotImplErr; UnboundErr] \/
  e = NotModelled \/ DiscoverRaises E e.
Proof. exact dshape_errors. Qed.
Print Assumptions C67_errors.

(** Without brackets in the text, every failure is DataShapeSyntaxError, or TypeError because of
    two ellipses, or ValueError because of a negative number, of two equal field names or of a
    string literal that Python refuses: in particular never an AttributeError or IndexError. *)
Theorem C67_plain : forall E s e, disc_ok E -> ~ Brackets s -> dshape E s = Raise e ->
  (exists p m, e = SyntaxErr p m) \/ (e = TypeErr /\ TwoEllipses s) \/
  (e = ValueErr /\ (NegativeInt s \/ RepeatedLabel s \/ BadLiteral s)).
Proof. exact dshape_plain. Qed.
Print Assumptions C67_plain.

(** What [discover] can raise on the categories: they are numbers, truth values or strings. *)
Theorem C67_categories : forall U sc so e, dates_ok so -> DiscoverRaises (full_env U sc so) e ->
  In e [IndexErr; OverflowErr; ValueErr] \/ exists s, so_date so s = Raise e.
Proof.
  intros U sc so e Hso [l H]. cbn [full_env e_disc] in H.
  assert (L : forall x, In x (map lit_val l) -> IsLeaf x /\ match x with DStr _ | DInt _ | DBool _ => True | _ => False end).
  { intros x Hx. apply in_map_iff in Hx as [y [<- _]]. destruct y; split; exact I. }
  assert (N : Nested (fun _ => True) (DSeq KTuple (map lit_val l))).
  { apply Nested_seq. apply Forall_forall. intros x Hx. destruct (L x Hx). now apply Nested_leaf. }
  destruct (discover_cause sc so _ e Hso N H) as [[x [Hx He]]|[-> _]]; [|left; cbn; tauto].
  inversion Hx as [HL|k ys y Hy HL'|]; subst; [contradiction|].
  destruct (L y Hy) as [Ly Ky]. assert (x = y) by (inversion HL'; subst; auto; contradiction). subst x.
  pose proof (leaf_errors sc so y e Ly He) as X. destruct y; try contradiction.
  destruct X as [->|[->|X]]; [left; cbn; tauto|left; cbn; tauto|right; eauto].
Qed.
Print Assumptions C67_categories.

(** Not DataShapeSyntaxError (nor a TypeError or ValueError) on every text it rejects: brackets lead
    to exceptions from inside the constructors. *)
Theorem C67_refuted :
  dshape E0 $"string[int32]" = Raise UnboundErr /\
  dshape E0 $"categorical[['a'], type='x']" = Raise AttributeErr /\
  dshape E0 $"fixed[3] * int32" = Raise NotImplErr /\
  dshape E0 $"timedelta['']" = Raise IndexErr.
Proof. repeat split; vm_compute; reflexivity. Qed.
Print Assumptions C67_refuted.

(** all the cases of [C67_plain] happen *)
Example C67_case : disc_ok E0 /\
  dshape E0 $"3 *" = Raise (SyntaxErr 3 MDimOrDtype) /\
  dshape E0 $"... * ... * int32" = Raise TypeErr /\
  dshape E0 $"{a: int32, a: int32}" = Raise ValueErr /\
  dshape E0 $"-3 * int32" = Raise ValueErr /\ ~ Brackets $"-3 * int32" /\ NegativeInt $"-3 * int32".
Proof.
  split; [intro l; exact I|]. repeat (split; [vm_compute; reflexivity|]). split.
  - intros [t [H K]]. vm_compute in H. repeat (destruct H as [<-|H]; [discriminate|]). contradiction.
  - exists {| tk_kind := KInt; tk_val := VInt (-3); tk_start := 0; tk_end := 2 |}, (-3)%Z. split; [vm_compute; tauto|]. split; [reflexivity|]. split; [reflexivity|]. lia.
Qed.
