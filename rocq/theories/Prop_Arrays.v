(** C49: what [discover] says about the contents of arrays of Python objects. *)
From Verif Require Import Base Types Lexer Printer Construct Parser Ops Preds Numpy Graph Discovery Arrays
  Spec_Arrays Spec_Numpy Proof_Numpy Proof_Arrays Prop_Found Tests_Parser Tests_Discovery.
Local Open Scope Z_scope.

(** For every shape, dtype and contents: the dimensions of the array and the measure of the
    dtype, in which exactly the object columns whose first five values (in C order) are strings
    have become [string]. *)
Theorem C49_content : forall sc so shp dt c m,
  from_numpy [] dt = Ok m -> Forall (fun z => 0 <= z) shp ->
  exists t, discover_ndarray sc so shp dt c = Ok t /\ shape t = map FixedT shp /\ Measures c m (measure t).
Proof. exact discover_content. Qed.
Print Assumptions C49_content.
(** So an array of strings (or an empty one) is typed [string]... *)
Theorem C49_text_array : forall sc so shp c,
  Forall (fun z => 0 <= z) shp -> Forall IsText (c_self c) ->
  exists t, discover_ndarray sc so shp NObject c = Ok t /\ shape t = map FixedT shp /\ measure t = string_t.
Proof.
  intros sc so shp c Hs F. destruct (discover_content sc so shp NObject c object_t eq_refl Hs) as [t [H1 [H2 H3]]].
  exists t. split; [exact H1|]. split; [exact H2|]. inversion H3 as [|? ? _ C]; subst.
  inversion C as [L E|N E|x N E]; subst; [reflexivity| |congruence].
  exfalso. apply N. intros i v _ E'. rewrite Forall_forall in F. apply F. eapply nth_error_In; eauto.
Qed.
Print Assumptions C49_text_array.
(** ... and one with another value among the first five is not. *)
Theorem C49_object_array : forall sc so shp c i v,
  Forall (fun z => 0 <= z) shp -> (i < 5)%nat -> nth_error (c_self c) i = Some v -> ~ IsText v ->
  exists t, discover_ndarray sc so shp NObject c = Ok t /\ shape t = map FixedT shp /\ measure t = object_t.
Proof.
  intros sc so shp c i v Hs Hi E N. destruct (discover_content sc so shp NObject c object_t eq_refl Hs) as [t [H1 [H2 H3]]].
  exists t. split; [exact H1|]. split; [exact H2|]. inversion H3 as [|? ? _ C]; subst.
  inversion C as [L E'|L E'|x L E']; subst; [|reflexivity|congruence]. exfalso. apply N. exact (L i v Hi E).
Qed.
Print Assumptions C49_object_array.
(** An array of objects with a string type need not hold only strings: whatever stands in the
    sixth place is not looked at. *)
Theorem C49_sixth_refuted : forall sc so v, ~ IsText v ->
  let l := repeat (DStr $"a") 5 ++ [v] in
  ~ Forall IsText l /\
  discover_ndarray sc so [6] NObject {| c_self := l; c_field := fun _ => [] |} = Ok (DataShapeT None [FixedT 6; string_t]).
Proof.
  intros sc so v N l. split; [|reflexivity]. intro F. unfold l in F. apply Forall_app in F as [_ F].
  inversion F; subst. auto.
Qed.
Print Assumptions C49_sixth_refuted.

(** ** the hypotheses can be met *)
Definition arr_content : content :=
  {| c_self := []; c_field := fun n => if str_eqb n $"name" then [DStr $"x"; DStr $"y"] else [DStr $"x"; DInt 3] |}.
Example C49_content_case : exists m, from_numpy [] arr_dt = Ok m /\
  discover_ndarray sc0 so0 [2] arr_dt arr_content =
  Ok (DataShapeT None [FixedT 2; RecordT [($"id", int32_t); ($"name", string_t); ($"blob", object_t)]]).
Proof. eexists. split; vm_compute; reflexivity. Qed.
Example C49_object_case :
  nth_error [DStr $"x"; DStr $"y"; DNone] 2 = Some DNone /\ ~ IsText DNone /\
  discover_ndarray sc0 so0 [1; 3] NObject {| c_self := [DStr $"x"; DStr $"y"; DNone]; c_field := fun _ => [] |} =
  Ok (DataShapeT None [FixedT 1; FixedT 3; object_t]).
Proof. split; [reflexivity|]. split; [intros [? H]; discriminate|]. vm_compute. reflexivity. Qed.
Example C49_empty_case :
  discover_ndarray sc0 so0 [0] NObject {| c_self := []; c_field := fun _ => [] |} = Ok (DataShapeT None [FixedT 0; string_t]).
Proof. vm_compute. reflexivity. Qed.
