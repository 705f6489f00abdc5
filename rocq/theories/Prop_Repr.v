(** C65: what [repr] shows; the texts of the paths of C56. *)
From Verif Require Import Base Types Lexer Printer Objects Report Spec_WF Spec_Objects Spec_Repr
  Proof_Repr2 Tests_Parser.
Local Open Scope N_scope.

(** [repr] of a string (field names, units, time zones, categories, path keys) is a Python
    literal of this string, whatever its characters *)
Theorem C65_string : forall U s, Forall CodePoint s -> PyStr (repr_str U s) s.
Proof. exact repr_PyStr. Qed.
Print Assumptions C65_string.
(** so it stands for this string alone *)
Theorem C65_string_only : forall U s s', Forall CodePoint s -> Forall CodePoint s' -> PyStr (repr_str U s) s' -> s = s'.
Proof. intros U s s' H H' K. apply (PyStr_fun (repr_str U s)); auto. now apply repr_PyStr. Qed.
Print Assumptions C65_string_only.

(** [repr] of an object names its class and shows all its attributes; of a scalar, a string, an
    array, a record or a tuple it shows the notation. *)
Theorem C65_repr : forall U t,
  (forall u s, Occurs u t -> In s (texts u) -> Forall CodePoint s) ->
  (forall u, Occurs u t -> match u with
                           | CType _ _ _ | StringT _ _ | DataShapeT _ _ | RecordT _ | TupleT _ => Quiet U u
                           | TypeSetT _ _ => False
                           | _ => True
                           end) ->
  Shows U (py_repr U t) (VaTy t).
Proof. intros U t H K. apply repr_shows. intros u Hu. split; [intros s Hs; eapply H; eauto|apply K; auto]. Qed.
Print Assumptions C65_repr.
(** the name of a scalar may hold any character but a quotation mark *)
Theorem C65_ctype : forall U n i a, Forall CodePoint n -> ~ In 34 n ->
  exists lit, py_repr U (CType n i a) = $"ctype(" ++ lit ++ $")" /\ PyStr lit n.
Proof.
  intros U n i a H D. exists ([34] ++ unicode_escape n ++ [34]). split; [|now apply escape_PyStr].
  cbn [py_repr]. unfold dq. rewrite <- !app_assoc. reflexivity.
Qed.
Print Assumptions C65_ctype.

(** with a quotation mark in its name the [repr] is no expression for it *)
Theorem C65_ctype_refuted : exists n i a, Forall CodePoint n /\
  forall lit, py_repr U0 (CType n i a) = $"ctype(" ++ lit ++ $")" -> ~ PyStr lit n.
Proof.
  exists [97; 34; 98], 1%Z, 1%Z. split; [repeat constructor; unfold CodePoint; lia|]. intros lit E [q [r [Hq [-> H]]]].
  assert (E2 : q :: r ++ [q] = [34; 97; 34; 98; 34]).
  { apply (app_inv_tail $")"). apply (app_inv_head $"ctype("). rewrite <- E. reflexivity. }
  injection E2 as -> E2. assert (E3 : r = [97; 34; 98]).
  { apply (app_inv_tail [34]). exact E2. }
  subst r. inversion H as [|c r s _ _ _ _ H2 E5 E4| |]; subst. inversion H2; subst. congruence.
Qed.
Print Assumptions C65_ctype_refuted.

(** C56: the text reported for a path is the Python expression that leads from [_] to the place *)
Theorem C56_text : forall U p, (forall n, In (StKey n) p -> Forall CodePoint n) ->
  match p with [] => fmt_path U p = [] | _ => exists x, fmt_path U p = $"path: _" ++ x /\ StepTexts p x end.
Proof.
  intros U p H. destruct p as [|s p]; [reflexivity|]. exists (flat_map (fmt_step U) (s :: p)). split; [reflexivity|now apply path_texts].
Qed.
Print Assumptions C56_text.

(** ** non-vacuity *)
Example C65_quote : repr_str U0 $"it's" = [34] ++ $"it's" ++ [34].
Proof. vm_compute. reflexivity. Qed.
Example C65_odd : repr_str U0 [39; 34; 92; 10; 7; 97] = [39; 92; 39; 34; 92; 92; 92; 110; 92; 120; 48; 55; 97; 39].
Proof. vm_compute. reflexivity. Qed.
Example C65_map : py_repr U0 (MapT (OptionT (UnitsT $"m" (CType $"float64" 8 8))) (TimeT (Some $"UTC"))) =
  $"Map(key=Option(ty=Units(unit='m', tp=ctype(" ++ [34] ++ $"float64" ++ [34] ++ $"))), value=Time(tz='UTC'))".
Proof. vm_compute. reflexivity. Qed.
Example C65_map_shows : Shows U0 (py_repr U0 (MapT (OptionT (UnitsT $"m" (CType $"float64" 8 8))) (TimeT (Some $"UTC"))))
  (VaTy (MapT (OptionT (UnitsT $"m" (CType $"float64" 8 8))) (TimeT (Some $"UTC")))).
Proof.
  assert (I : forall u t, Occurs u t -> u = t \/ exists c, In c (children t) /\ Occurs u c).
  { intros u t H. destruct H; eauto. }
  assert (Q : Quiet U0 (CType $"float64" 8 8)).
  { intros u s Hu. apply I in Hu as [->|[c [[] _]]].
    intros [<-|[]]. unfold QuietText. change $"float64" with [102;108;111;97;116;54;52]. repeat (apply Forall_cons; [left; repeat split; lia|]). apply Forall_nil. }
  assert (O : forall u, Occurs u (MapT (OptionT (UnitsT $"m" (CType $"float64" 8 8))) (TimeT (Some $"UTC"))) ->
    In u [MapT (OptionT (UnitsT $"m" (CType $"float64" 8 8))) (TimeT (Some $"UTC")); OptionT (UnitsT $"m" (CType $"float64" 8 8));
          UnitsT $"m" (CType $"float64" 8 8); CType $"float64" 8 8; TimeT (Some $"UTC")]).
  { intros u H. apply I in H as [->|[c [[<-|[<-|[]]] H]]]; [left; auto| |].
    - apply I in H as [->|[c [[<-|[]] H]]]; [right; left; auto|].
      apply I in H as [->|[c [[<-|[]] H]]]; [do 2 right; left; auto|].
      apply I in H as [->|[c [[] _]]]. do 3 right. left. auto.
    - apply I in H as [->|[c [[] _]]]. do 4 right. left. auto. }
  apply C65_repr.
  - intros u s Hu. apply O in Hu. destruct Hu as [<-|[<-|[<-|[<-|[<-|[]]]]]]; cbn [texts]; intros Hs;
      try contradiction; destruct Hs as [<-|[]]; apply ascii_cp; reflexivity.
  - intros u Hu. apply O in Hu. destruct Hu as [<-|[<-|[<-|[<-|[<-|[]]]]]]; auto.
Qed.
