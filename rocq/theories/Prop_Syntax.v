(** C70: the message of a syntax error is true of the text at the place it points to. *)
From Verif Require Import Base Types Lexer Printer Construct Parser Ops Preds Objects Spec_Lexer Spec_Preds Spec_Grammar Spec_Places Spec_Syntax
  Proof_Parser Proof_Syntax2 Tests_Parser.

(** Every DataShapeSyntaxError that [dshape(s)] raises is about [s] or about a text inside it
    (a string literal read as a datashape), which itself raises it. Either no token begins at the
    place reported, or the place lies between two tokens [b] and [a] of that text and the words of
    the message are a true complaint about what precedes and what follows. [str(e)] shows the line
    with the place, a caret below the place, and these words. *)
Theorem C70_message_true : forall E s p m, disc_ok E -> dshape E s = Raise (SyntaxErr p m) ->
  exists u, Within s u /\ dshape E u = Raise (SyntaxErr p m) /\
    ((msg_text m = $"Invalid DataShape token" /\ snd (lex u) = Some (SyntaxErr p MToken)) \/
     (exists b a, Place u p b a /\ Complaint (default_sym E (dshape E)) b a (msg_text m))) /\
    Shown u p (msg_text m) (syntax_str u p m).
Proof. exact syntax_messages. Qed.
Print Assumptions C70_message_true.

(** the default symbol table lacks nothing that the syntax needs *)
Theorem C70_table_complete : forall E s p n w, disc_ok E -> dshape E s <> Raise (SyntaxErr p (MMissing n w)).
Proof.
  intros E s p n w HE H. destruct (syntax_explained E HE _ _ _ H) as [u [_ [_ [[H1 _]|[b [a [_ H1]]]]]]]; [discriminate|].
  inversion H1 as [? ? ? ? H2| |]; subst. inversion H2.
Qed.
Print Assumptions C70_table_complete.

(** One text for every message. *)
Local Notation says s p m := (dshape E0 s = Raise (SyntaxErr p m)).
Example C70_token : says $"3 * $int32" 4 MToken. Proof. vm_compute. reflexivity. Qed.
Example C70_dim : says $"3 * var * 4" 10 MDimOrDtype. Proof. vm_compute. reflexivity. Qed.
Example C70_dim_dropped : says $"3 * ? var ]" 4 MDimOrDtype. Proof. vm_compute. reflexivity. Qed.
Example C70_closing : says $"fixed[3, 4 5] * int32" 11 MClosing. Proof. vm_compute. reflexivity. Qed.
Example C70_none : says $"string[]" 7 MNoArgument. Proof. vm_compute. reflexivity. Qed.
Example C70_bad : says $"string[10 'A']" 10 MBadArgument. Proof. vm_compute. reflexivity. Qed.
Example C70_keyword : says $"units['m', tp=int32, 5]" 21 MKeyword. Proof. vm_compute. reflexivity. Qed.
Example C70_list_start : says $"struct[[*], [int32]]" 8 MListArgument. Proof. vm_compute. reflexivity. Qed.
Example C70_list_end : says $"struct[['a' 'b'], [int32]]" 12 MListSeparator. Proof. vm_compute. reflexivity. Qed.
Example C70_argument : says $"datetime[tz=]" 12 MArgument. Proof. vm_compute. reflexivity. Qed.
Example C70_another_datashape : says $"struct[['a'], [int32, 5]]" 22 MAnotherDatashape. Proof. vm_compute. reflexivity. Qed.
Example C70_another_integer : says $"categorical[[1, 'a']]" 16 MAnotherInteger. Proof. vm_compute. reflexivity. Qed.
Example C70_another_string : says $"categorical[['a', 1]]" 18 MAnotherString. Proof. vm_compute. reflexivity. Qed.
Example C70_another_boolean : says $"categorical[[True, 1]]" 19 MAnotherBoolean. Proof. vm_compute. reflexivity. Qed.
Example C70_field : says $"{a: int32 b: int32}" 10 MField. Proof. vm_compute. reflexivity. Qed.
Example C70_colon : says $"{a int32}" 3 MColon. Proof. vm_compute. reflexivity. Qed.
Example C70_field_datashape : says $"{a: int33}" 4 MFieldDatashape. Proof. vm_compute. reflexivity. Qed.
Example C70_tuple : says $"(int32, 5)" 8 MTuple. Proof. vm_compute. reflexivity. Qed.
Example C70_return : says $"(int32) -> " 10 MReturn. Proof. vm_compute. reflexivity. Qed.
Example C70_invalid : says $"int33" 0 MInvalid. Proof. vm_compute. reflexivity. Qed.
Example C70_unexpected : says $"3 * int32]" 9 MUnexpected. Proof. vm_compute. reflexivity. Qed.
Example C70_inner : says $"2 * option['3 * int33']" 4 MDimOrDtype /\ Inner (fst (lex $"2 * option['3 * int33']")) $"3 * int33".
Proof.
  split; [vm_compute; reflexivity|]. exists {| tk_kind := KStr; tk_val := VStr $"3 * int33"; tk_start := 11; tk_end := 22 |}, $"3 * int33".
  split; [vm_compute; tauto|]. auto.
Qed.
Example C70_shown : syntax_str $"3 * int32]" 9 MUnexpected =
  [10; 10]%N ++ $"  File <nofile>, line 1" ++ [10%N] ++ $"    3 * int32]" ++ [10%N] ++ $"             ^" ++ [10; 10]%N ++
  $"DataShapeSyntaxError: Unexpected token in datashape" ++ [10%N].
Proof. vm_compute. reflexivity. Qed.
