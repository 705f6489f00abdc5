-Q theories Verif
theories/Arrays.v
theories/Attrs.v
theories/Base.v
theories/Construct.v
theories/Discovery.v
theories/Graph.v
theories/Keys.v
theories/Lexer.v
theories/Messages.v
theories/Numpy.v
theories/Objects.v
theories/Ops.v
theories/Parser.v
theories/Preds.v
theories/Printer.v
theories/Proof_Arrays.v
theories/Proof_Attrs.v
theories/Proof_Canon.v
theories/Proof_Coerce.v
theories/Proof_Constr.v
theories/Proof_Constr2.v
theories/Proof_Constr3.v
theories/Proof_Discovery.v
theories/Proof_Discovery2.v
theories/Proof_Discovery3.v
theories/Proof_Discovery4.v
theories/Proof_Discovery5.v
theories/Proof_Discovery6.v
theories/Proof_Discovery7.v
theories/Proof_Discovery8.v
theories/Proof_Discovery9.v
theories/Proof_Eq.v
theories/Proof_Errors.v
theories/Proof_Errors2.v
theories/Proof_Fits.v
theories/Proof_Fits2.v
theories/Proof_Fits3.v
theories/Proof_Fits4.v
theories/Proof_Float.v
theories/Proof_Float2.v
theories/Proof_Float3.v
theories/Proof_Grammar.v
theories/Proof_Grammar2.v
theories/Proof_Grammar3.v
theories/Proof_Grammar4.v
theories/Proof_Grammar5.v
theories/Proof_Graph.v
theories/Proof_Keys.v
theories/Proof_Keys2.v
theories/Proof_Keys3.v
theories/Proof_Keys4.v
theories/Proof_Layout.v
theories/Proof_Layout2.v
theories/Proof_Layout3.v
theories/Proof_Lexer.v
theories/Proof_Messages.v
theories/Proof_NpConv.v
theories/Proof_NpConv2.v
theories/Proof_NpConv3.v
theories/Proof_Numpy.v
theories/Proof_Objects.v
theories/Proof_Objects2.v
theories/Proof_Ops.v
theories/Proof_Ops2.v
theories/Proof_Ops3.v
theories/Proof_Ops4.v
theories/Proof_Parser.v
theories/Proof_ParserRel.v
theories/Proof_Places.v
theories/Proof_Preds.v
theories/Proof_Preds2.v
theories/Proof_Preds3.v
theories/Proof_Preds4.v
theories/Proof_Preds5.v
theories/Proof_Print.v
theories/Proof_Print2.v
theories/Proof_Print3.v
theories/Proof_Print4.v
theories/Proof_Promote.v
theories/Proof_Raises.v
theories/Proof_Raises2.v
theories/Proof_Raises3.v
theories/Proof_Raises4.v
theories/Proof_Raises5.v
theories/Proof_Reads.v
theories/Proof_Regular.v
theories/Proof_Regular2.v
theories/Proof_Regular3.v
theories/Proof_Report.v
theories/Proof_Repr.v
theories/Proof_Repr2.v
theories/Proof_Scan.v
theories/Proof_Slice.v
theories/Proof_Slice2.v
theories/Proof_Slice3.v
theories/Proof_Strings.v
theories/Proof_Strings2.v
theories/Proof_Strings3.v
theories/Proof_Strings4.v
theories/Proof_Strings5.v
theories/Proof_Symbols.v
theories/Proof_Syntax.v
theories/Proof_Syntax2.v
theories/Proof_Time.v
theories/Proof_User.v
theories/Proof_User2.v
theories/Proof_WF.v
theories/Prop_Arrays.v
theories/Prop_Attrs.v
theories/Prop_Constr.v
theories/Prop_Discovery.v
theories/Prop_Eq.v
theories/Prop_Errors.v
theories/Prop_Fits.v
theories/Prop_Found.v
theories/Prop_Grammar.v
theories/Prop_Keys.v
theories/Prop_Layout.v
theories/Prop_Lexer.v
theories/Prop_Messages.v
theories/Prop_NpConv.v
theories/Prop_Numpy.v
theories/Prop_Objects.v
theories/Prop_Ops.v
theories/Prop_Parser.v
theories/Prop_Preds.v
theories/Prop_Print.v
theories/Prop_Raises.v
theories/Prop_Reads.v
theories/Prop_Regular.v
theories/Prop_Report.v
theories/Prop_Repr.v
theories/Prop_Slice.v
theories/Prop_Strings.v
theories/Prop_Symbols.v
theories/Prop_Syntax.v
theories/Prop_Texts.v
theories/Prop_Time.v
theories/Prop_User.v
theories/Prop_Utils.v
theories/Report.v
theories/Spec_Arrays.v
theories/Spec_Attrs.v
theories/Spec_Constr.v
theories/Spec_Dicts.v
theories/Spec_Discovery.v
theories/Spec_Eq.v
theories/Spec_Errors.v
theories/Spec_Fits.v
theories/Spec_Found.v
theories/Spec_Grammar.v
theories/Spec_Graph.v
theories/Spec_Keys.v
theories/Spec_Layout.v
theories/Spec_Lexer.v
theories/Spec_Messages.v
theories/Spec_NpConv.v
theories/Spec_Numpy.v
theories/Spec_Objects.v
theories/Spec_Ops.v
theories/Spec_Places.v
theories/Spec_Preds.v
theories/Spec_Print.v
theories/Spec_Raises.v
theories/Spec_Regular.v
theories/Spec_Report.v
theories/Spec_Repr.v
theories/Spec_Strings.v
theories/Spec_Symbols.v
theories/Spec_Syntax.v
theories/Spec_Time.v
theories/Spec_User.v
theories/Spec_WF.v
theories/Strings.v
theories/Tests_Discovery.v
theories/Tests_Parser.v
theories/Texts.v
theories/Types.v
theories/User.v
theories/Utils.v
