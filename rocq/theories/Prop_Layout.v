(** C66: the lines of [pprint]. *)
From Verif Require Import Base Types Lexer Printer Construct Parser Spec_WF Spec_Layout Proof_Layout Proof_Layout2 Proof_Layout3 Tests_Parser.
Local Open Scope N_scope.

(** Every datashape has a one-line notation [o]. [pprint] at every width, and [str], are this
    notation spread over lines: brackets are kept on a line, or every entry has a line of its own,
    two spaces further in. What is shorter than the width stays on one line (records inside options,
    maps and the like, which are always shown for width 80, must be short as well or absent); a
    record, a tuple or an array of them that is not shorter is broken. *)
Theorem C66_lines : forall U t, Tidy t -> exists o, ~ In 10 o /\
  (forall w, Laid 0 (pprint U t w) o) /\ Laid 0 (py_str U t) o /\
  (forall w, (Z.of_nat (length o) < w)%Z -> Open t \/ (Z.of_nat (length o) < 80)%Z -> pprint U t w = o) /\
  (forall w, Breakable t -> (w <= Z.of_nat (length o))%Z -> In 10 (pprint U t w)).
Proof. exact pprint_lines. Qed.
Print Assumptions C66_lines.
(** Exactly which brackets are broken, at every depth: [pprint] gives the one text that the rules of
    [Shown] allow, where [one] is the notation on a single line, which [pprint] itself gives for
    every width larger than its length *)
Theorem C66_exact : forall U, exists one : ty -> str,
  (forall t w, Tidy t -> Open t -> (len (one t) < w)%Z -> pprint U t w = one t /\ ~ In 10 (one t)) /\
  forall t w s, Tidy t -> Open t -> (Shown one (field_name U) 0 w t s <-> s = pprint U t w).
Proof.
  intro U. exists (one U). split.
  - intros t w T O H. split; [apply pp_open; auto|apply one_flat; auto].
  - intros. apply pprint_exact; auto.
Qed.
Print Assumptions C66_exact.
(** so widths that show it on one line agree, and wider ones do too *)
Theorem C66_wider : forall U t w w', Tidy t -> Open t -> Breakable t -> ~ In 10 (pprint U t w) -> (w <= w')%Z ->
  pprint U t w' = pprint U t w.
Proof.
  intros U t w w' T HO HB HN Hw. destruct (pprint_lines U t T) as [o [_ [_ [_ [HF HBr]]]]].
  assert (L : (Z.of_nat (length o) < w)%Z) by (destruct (Z.lt_ge_cases (Z.of_nat (length o)) w); auto; exfalso; auto).
  rewrite !HF; auto. lia.
Qed.
Print Assumptions C66_wider.
(** a record inside an option does not get the width of [pprint] *)
Theorem C66_option_refuted : exists t w, dshape E0 $"?{name: string, first_long_field: int64, second_long_field: int64, third_one: int32}" = Ok t /\
  Tidy t /\ (Z.of_nat (length (py_str U0 t)) < w)%Z /\ In 10 (pprint U0 t w).
Proof.
  eexists _, 1000%Z. split; [vm_compute; reflexivity|]. split; [|split; [vm_compute; reflexivity|vm_compute; tauto]].
  intros u Hu.
  assert (I : forall u t, Occurs u t -> u = t \/ exists c, In c (children t) /\ Occurs u c) by (intros x y H; destruct H; eauto).
  assert (N10 : forall s, forallb (fun c => negb (N.eqb c 10)) s = true -> ~ In 10 s) by (intros s H K; rewrite forallb_forall in H; apply H in K; discriminate).
  apply I in Hu as [->|[c [[<-|[]] Hu]]]; [exact Logic.I|].
  apply I in Hu as [->|[c [[<-|[]] Hu]]]; [exact Logic.I|].
  apply I in Hu as [->|[c [Hc Hu]]].
  - intros f Hf. cbn [In] in Hf. destruct Hf as [<-|[<-|[<-|[<-|[]]]]]; apply N10; reflexivity.
  - cbn [children map In snd] in Hc. destruct Hc as [<-|[<-|[<-|[<-|[]]]]]; apply I in Hu as [->|[c [[] _]]]; try exact Logic.I; apply N10; reflexivity.
Qed.
Print Assumptions C66_option_refuted.

(** ** non-vacuity *)
Definition tbl : ty := DataShapeT None [FixedT 5; RecordT [($"a", TupleT [DataShapeT None [CType $"int32" 4 4]; DataShapeT None [StringT None $"U8"]]); ($"b c", CType $"float64" 8 8)]].
Example C66_tidy : Tidy tbl /\ Open tbl /\ Breakable tbl.
Proof.
  assert (I : forall u t, Occurs u t -> u = t \/ exists c, In c (children t) /\ Occurs u c) by (intros x y H; destruct H; eauto).
  assert (N10 : forall s, forallb (fun c => negb (N.eqb c 10)) s = true -> ~ In 10 s) by (intros s H K; rewrite forallb_forall in H; apply H in K; discriminate).
  split; [|split].
  - intros u Hu. apply I in Hu as [->|[c [[<-|[<-|[]]] Hu]]]; [exact Logic.I| |].
    + apply I in Hu as [->|[c [[] _]]]. exact Logic.I.
    + apply I in Hu as [->|[c [[<-|[<-|[]]] Hu]]].
      * intros f [<-|[<-|[]]]; apply N10; reflexivity.
      * apply I in Hu as [->|[c [[<-|[<-|[]]] Hu]]]; [exact Logic.I| |].
        -- apply I in Hu as [->|[c [[<-|[]] Hu]]]; [exact Logic.I|]. apply I in Hu as [->|[c [[] _]]]. apply N10. reflexivity.
        -- apply I in Hu as [->|[c [[<-|[]] Hu]]]; [exact Logic.I|]. apply I in Hu as [->|[c [[] _]]]. exact Logic.I.
      * apply I in Hu as [->|[c [[] _]]]. apply N10. reflexivity.
  - apply (OP_array None [FixedT 5]); [| |left; eauto].
    + intros d [<-|[]] fs Ho. apply I in Ho as [Ho|[c [[] _]]]. discriminate.
    + apply OP_record. intros f [<-|[<-|[]]].
      * apply OP_tuple. intros t [<-|[<-|[]]]; apply OP_plain; intros fs Ho;
          (apply I in Ho as [Ho|[c [[<-|[]] Ho]]]; [discriminate|]; apply I in Ho as [Ho|[c [[] _]]]; discriminate).
      * apply OP_plain. intros fs Ho. apply I in Ho as [Ho|[c [[] _]]]. discriminate.
  - apply (BR_array None [FixedT 5]). left. eauto.
Qed.
Example C66_shown :
  pprint U0 tbl 80 = $"5 * {a: (int32, string), 'b c': float64}" /\
  pprint U0 tbl 20 = $"5 * {" ++ NL 1 ++ $"a: (" ++ NL 2 ++ $"int32," ++ NL 2 ++ $"string" ++ NL 2 ++ $")," ++ NL 1 ++ $"'b c': float64" ++ NL 1 ++ $"}" /\
  pprint U0 tbl 22 = $"5 * {" ++ NL 1 ++ $"a: (int32, string)," ++ NL 1 ++ $"'b c': float64" ++ NL 1 ++ $"}".
Proof. repeat split; vm_compute; reflexivity. Qed.
