(** C61: the datashape that [discover] finds describes the data. *)
From Verif Require Import Base Types Lexer Printer Construct Numpy Graph Discovery Tests_Discovery
  Spec_WF Spec_Discovery Spec_Found Spec_Fits Proof_WF Proof_Fits4 Prop_Found.
Local Open Scope Z_scope.

(** Every value without an empty dict fits the datashape discovered for it (Spec_Fits.v): arrays
    have the length of the list and an element type that fits every element, tuples fit item by
    item, the fields of a record fit the values of the dict, and a leaf is of its own type up to
    the documented coercions. *)
Theorem C61_describes : forall sc so v t, dates_ok so -> NoEmptyDict v -> discover sc so v = Ok t ->
  Fits (fun x u => discover sc so x = Ok u) t v.
Proof. intros sc so v t H1 H2 H3. exact (discover_fits sc so H1 v t H2 H3). Qed.
Print Assumptions C61_describes.

Definition L (l : list dval) := DSeq KList l.
Definition M (l : list (str * dval)) := DMap KDict l.
(** [[{'a': 1, 'b': {'x': 'abc'}}, {'a': 2.5, 'b': None}], [(1, None), (2.5, [1])]] *)
Definition ex61 : dval :=
  L [L [M [($"a", DInt 1); ($"b", M [($"x", DStr $"abc")])]; M [($"a", DFloat); ($"b", DNone)]];
     L [DSeq KTuple [DInt 1; DNone]; DSeq KTuple [DFloat; DInt 1]]].
Example C61_case : dates_ok so0 /\ NoEmptyDict ex61 /\
  discover sc0 so0 ex61 = Ok (TupleT
    [DataShapeT None [FixedT 2; RecordT [($"a", float64_t); ($"b", OptionT (RecordT [($"x", string_t)]))]];
     DataShapeT None [FixedT 2; TupleT [DataShapeT None [float64_t]; DataShapeT None [OptionT int64_t]]]]).
Proof.
  split; [exact (proj1 C47_case)|]. split; [|vm_compute; reflexivity].
  assert (LF : forall v, IsLeaf v -> NoEmptyDict v) by (intros; now apply NE_leaf).
  unfold ex61, L, M. 
  repeat first [apply NE_leaf; exact I | apply NE_seq; apply Forall_forall; intros ? [<-|HI]; [|revert HI; intros [<-|[]]]
    | apply NE_map; [discriminate|apply nodup_str_NoDup; reflexivity|apply Forall_forall; cbn [In]; intros ? HI; repeat (destruct HI as [<-|HI]; [cbn [snd]|]); try contradiction]].
Qed.

(** [Fits] rules things out: a list of another length, a dict, and, since Null is no other type,
    None where there is no option *)
Fixpoint core (t : ty) : Prop :=
  match t with DataShapeT None [x] => core x | OptionT x => core x | RecordT _ | NullT => True | _ => False end.
Lemma widens_record t u : Widens t u -> core u -> core t.
Proof.
  induction 1 as [t|t u v _ IH1 _ IH2|t u H HN|u|u|t|t|k r Hr|fs gs get _ _ _]; intro X.
  - exact X.
  - auto.
  - inversion H; subst; destruct X.
  - exact I.
  - exact X.
  - exact X.
  - exact X.
  - destruct r as [|x r]; [congruence|]. destruct X.
  - exact I.
Qed.
Theorem C61_fits_rejects : forall leaf k,
  ~ Fits leaf (DataShapeT None [FixedT 3; int64_t]) (DSeq k [DInt 1]) /\
  ~ Fits leaf (RecordT [($"a", int64_t)]) (DSeq k [DInt 1]) /\
  ~ Fits leaf int64_t (DMap KDict [($"a", DInt 1)]) /\
  (forall t, (forall x u, leaf x u -> IsLeaf x -> u = int64_t) -> ~ Fits leaf (RecordT t) (DInt 5)).
Proof.
  intros leaf k. repeat split.
  - intro H. remember (DataShapeT None [FixedT 3; int64_t]) as t eqn:E. remember (DSeq k [DInt 1]) as v eqn:Ev.
    destruct H; subst; try discriminate; try contradiction. injection Ev as -> ->. discriminate E.
  - intro H. inversion H; subst; contradiction.
  - intro H. inversion H; subst; contradiction.
  - intros t HL H. inversion H as [v t0 u L1 L2 W| | | | | |]; subst. rewrite (HL _ _ L2 L1) in W. apply widens_record in W; exact W || exact I.
Qed.
(** An empty dict makes the claim false: its type swallows the other types of the column.
    discover([{'a': {}}, {'a': 5}]) is 2 * {a: {}} *)
Theorem C61_empty_dict_refuted :
  let v := L [M [($"a", M [])]; M [($"a", DInt 5)]] in
  discover sc0 so0 v = Ok (DataShapeT None [FixedT 2; RecordT [($"a", RecordT [])]]) /\
  ~ Fits (fun x u => discover sc0 so0 x = Ok u) (DataShapeT None [FixedT 2; RecordT [($"a", RecordT [])]]) v.
Proof.
  split; [vm_compute; reflexivity|]. intro H. inversion H as [|ps k l NP HF| | | | |]; subst; [contradiction|].
  specialize (HF (M [($"a", DInt 5)]) (or_intror (or_introl eq_refl))).
  inversion HF as [| | | | | |t v HF1]; subst; [contradiction|]. inversion HF1 as [| | | |fs k d HR| |]; subst; [contradiction|].
  specialize (HR $"a" (RecordT []) (or_introl eq_refl)). cbn in HR.
  inversion HR as [v t0 u L1 L2 W| | | | | |]; subst. injection L2 as <-. apply widens_record in W; exact W || exact I.
Qed.
(** The type of a column of dicts has the keys of the first dict only: the key 'y' is lost.
    discover([{'b': {'x': 1}}, {'b': {'x': 1, 'y': 2}}]) is 2 * {b: {x: int64}} *)
Theorem C61_all_keys_refuted :
  let v := L [M [($"b", M [($"x", DInt 1)])]; M [($"b", M [($"x", DInt 1); ($"y", DInt 2)])]] in
  NoEmptyDict v /\
  discover sc0 so0 v = Ok (DataShapeT None [FixedT 2; RecordT [($"b", RecordT [($"x", int64_t)])]]).
Proof.
  split; [|vm_compute; reflexivity]. unfold L, M.
  repeat first [apply NE_leaf; exact I | apply NE_seq; apply Forall_forall; intros ? [<-|HI]; [|revert HI; intros [<-|[]]]
    | apply NE_map; [discriminate|apply nodup_str_NoDup; reflexivity|apply Forall_forall; cbn [In]; intros ? HI; repeat (destruct HI as [<-|HI]; [cbn [snd]|]); try contradiction]].
Qed.
