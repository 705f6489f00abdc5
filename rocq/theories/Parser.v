(** The recursive-descent parser (parser.py), validation.py and util.dshape. *)
From Verif Require Import Base Types Lexer Printer Construct.

(** ** Token stream. The parser state [self.pos] is represented by the suffix of the
    token list starting at the current token; backtracking ([self.pos = saved])
    restores an earlier suffix. The list ends in [PEnd] (the EOF token, parser.py:44-50)
    or in [PErr e] when the lexer raises [e] there. *)
Inductive ptok :=
| PTok (t : token)
| PEnd (pos : nat)
| PErr (e : exn).
Definition toks := list ptok.

(** tokens produced so far plus the end marker; [last_end] is the end of the last token *)
Fixpoint stream (ts : list token) (err : option exn) (last_end : nat) : toks :=
  match ts with
  | [] => [match err with Some e => PErr e | None => PEnd last_end end]
  | t :: r => PTok t :: stream r err (tk_end t)
  end.

(** [self.tok.id]: None for EOF *)
Definition tok_kind (ts : toks) : option kind :=
  match ts with PTok t :: _ => Some (tk_kind t) | _ => None end.
(** [self.tok.val] *)
Definition tok_value (ts : toks) : tval :=
  match ts with PTok t :: _ => tk_val t | _ => VNone end.
(** [self.tok.span[0]] *)
Definition tok_pos (ts : toks) : nat :=
  match ts with PTok t :: _ => tk_start t | PEnd p :: _ => p | _ => O end.
(** [raise_error], parser.py:56-58 *)
Definition raise_error {A} (ts : toks) (msg : synmsg) : res A := Raise (SyntaxErr (tok_pos ts) msg).

(** [advance_tok], parser.py:33-54: no move at EOF; a lexer exception surfaces when the
    offending token is requested. *)
Definition advance (ts : toks) : res toks :=
  match ts with
  | PTok _ :: PErr e :: _ => Raise e
  | PTok _ :: r => Ok r
  | _ => Ok ts
  end.

Scheme Equality for kind.
Definition kind_is (k : kind) (ts : toks) : bool :=
  match tok_kind ts with Some k' => kind_beq k k' | None => false end.

Definition vstr (v : tval) : str := match v with VStr s => s | _ => [] end.
Definition vint (v : tval) : Z := match v with VInt z => z | _ => 0%Z end.

(** parser results: [Ok (Some x, rest)], [Ok (None, rest)] (Python None; the position may
    have moved), or an exception *)
Definition P (A : Type) := res (option A * toks).

(** [parse_homogeneous_list], parser.py:60-94. [saved] is the position at entry. What to do when
    an item is missing after a separator: with [trailing_sep] the list ends there, without it
    [errmsg] is raised. *)
Inductive onmiss := Trailing | Complain (errmsg : synmsg).
Fixpoint hom_loop {A} (item : toks -> P A) (n : nat) (sep : kind) (trailing : onmiss)
    (saved : toks) (items : list A) (ts : toks) : P (list A) :=
  match n with
  | O => Raise OutOfFuel
  | S n' =>
      let! (o, ts1) := item ts in
      match o with
      | Some x =>
          if kind_is sep ts1
          then let! ts2 := advance ts1 in
               hom_loop item n' sep trailing saved (items ++ [x]) ts2
          else Ok (Some (items ++ [x]), ts1)
      | None =>
          match items with
          | _ :: _ => match trailing with
                      | Trailing => Ok (Some items, ts1)
                      | Complain errmsg => raise_error ts1 errmsg
                      end
          | [] => Ok (None, saved)
          end
      end
  end.
Definition hom_list {A} (item : toks -> P A) (sep : kind) (trailing : onmiss) (ts : toks)
  : P (list A) := hom_loop item (S (length ts)) sep trailing ts [] ts.

(** [syntactic_sugar], parser.py:96-122: [err] is the position flagged when missing *)
Definition sugar {A} (e : str -> option A) (name what : str) (err : toks) : res A :=
  match e name with Some x => Ok x | None => raise_error err (MMissing name what) end.

(** keyword arguments as a dict: a later duplicate replaces the value *)
Fixpoint dict_set (k : str) (v : targ) (d : list (str * targ)) : list (str * targ) :=
  match d with
  | [] => [(k, v)]
  | (k', v') :: r => if str_eqb k k' then (k, v) :: r else (k', v') :: dict_set k v r
  end.
Definition dict_of (l : list (str * targ)) : list (str * targ) :=
  fold_left (fun d p => dict_set (fst p) (snd p) d) l [].

Section Parser.
  Variable sym : symtab.
  (** [self.parse_datashape] at the next recursion level *)
  Variable rec : toks -> P ty.

  (** [parse_integer] :430, [parse_string] :476, [parse_boolean] :453 *)
  Definition parse_tokval (k : kind) (f : tval -> targ) (ts : toks) : P targ :=
    if kind_is k ts
    then let v := tok_value ts in let! ts1 := advance ts in Ok (Some (f v), ts1)
    else Ok (None, ts).
  Definition val_targ (v : tval) : targ :=
    match v with
    | VBool b => ABool b
    | VStr s => AStr s
    | VInt z => AInt z
    | VNone => AList []
    end.
  Definition rec_targ (ts : toks) : P targ :=
    let! (o, ts1) := rec ts in Ok (option_map ADs o, ts1).

  (** the message of the list of INTEGER, STRING or BOOLEAN tokens, parser.py:449, 495, 472 *)
  Definition another (k : kind) : synmsg :=
    match k with KInt => MAnotherInteger | KStr => MAnotherString | _ => MAnotherBoolean end.
  (** [parse_type_arg], parser.py:354-394 *)
  Definition parse_type_arg (ts : toks) : P targ :=
    let! (ds, ts1) := rec ts in
    match ds with
    | Some t => Ok (Some (ADs t), ts1)
    | None =>
        if kind_is KInt ts1 || kind_is KStr ts1 || kind_is KBool ts1
        then let v := tok_value ts1 in
             let! ts2 := advance ts1 in Ok (Some (val_targ v), ts2)
        else if kind_is KLBk ts1 then
          let! ts2 := advance ts1 in
          let! (v1, ts3) := hom_list rec_targ KComma (Complain MAnotherDatashape) ts2 in
          let! (v2, ts4) := match v1 with
                            | Some _ => Ok (v1, ts3)
                            | None => hom_list (parse_tokval KInt val_targ) KComma (Complain (another KInt)) ts3
                            end in
          let! (v3, ts5) := match v2 with
                            | Some _ => Ok (v2, ts4)
                            | None => hom_list (parse_tokval KStr val_targ) KComma (Complain (another KStr)) ts4
                            end in
          let! (v4, ts6) := match v3 with
                            | Some _ => Ok (v3, ts5)
                            | None => hom_list (parse_tokval KBool val_targ) KComma (Complain (another KBool)) ts5
                            end in
          if kind_is KRBk ts6
          then let! ts7 := advance ts6 in
               Ok (Some (AList (match v4 with Some l => l | None => [] end)), ts7)
          else raise_error ts6 (match v4 with None => MListArgument | Some _ => MListSeparator end)
        else Ok (None, ts1)
    end.

  (** [parse_type_kwarg], parser.py:396-416 *)
  Definition parse_type_kwarg (ts : toks) : P (str * targ) :=
    if kind_is KLower ts then
      let name := vstr (tok_value ts) in
      let! ts1 := advance ts in
      if kind_is KEq ts1 then
        let! ts2 := advance ts1 in
        let! (a, ts3) := parse_type_arg ts2 in
        match a with
        | Some x => Ok (Some (name, x), ts3)
        | None => raise_error ts3 MArgument
        end
      else Ok (None, ts)
    else Ok (None, ts).

  (** [parse_type_arg_list], parser.py:320-352 *)
  Fixpoint arg_loop (n : nat) (args : list targ) (ts : toks)
    : res (list targ * list (str * targ) * toks) :=
    match n with
    | O => Raise OutOfFuel
    | S n' =>
        let! (a, ts1) := parse_type_arg ts in
        match a with
        | Some x =>
            if kind_is KComma ts1
            then let! ts2 := advance ts1 in arg_loop n' (args ++ [x]) ts2
            else Ok (args ++ [x], [], ts1)
        | None =>
            let! (kw, ts2) := hom_list parse_type_kwarg KComma (Complain MKeyword) ts1 in
            Ok (args, match kw with Some l => dict_of l | None => [] end, ts2)
        end
    end.
  Definition parse_type_arg_list (ts : toks) : res (list targ * list (str * targ) * toks) :=
    arg_loop (S (length ts)) [] ts.

  (** [parse_struct_field], parser.py:525-547 *)
  Definition parse_struct_field (ts : toks) : P (str * ty) :=
    if kind_is KLower ts || kind_is KUpper ts || kind_is KOther ts || kind_is KStr ts then
      let name := vstr (tok_value ts) in
      let! ts1 := advance ts in
      if kind_is KColon ts1 then
        let! ts2 := advance ts1 in
        let! (ds, ts3) := rec ts2 in
        match ds with
        | Some t => Ok (Some (name, t), ts3)
        | None => raise_error ts3 MFieldDatashape
        end
      else raise_error ts1 MColon
    else Ok (None, ts).

  Definition opt_list {A} (o : option (list A)) : list A :=
    match o with Some l => l | None => [] end.

  (** [parse_struct_type], parser.py:499-523 *)
  Definition parse_struct_type (ts : toks) : P ty :=
    let! ts1 := advance ts in
    let! (fs, ts2) := hom_list parse_struct_field KComma Trailing ts1 in
    if kind_is KRBc ts2 then
      let! ts3 := advance ts2 in
      let fields := opt_list fs in
      let! con := sugar (st_dtype_constr sym) $"struct" $"{...} dtype constructor" ts in
      let! t := con [AList (map (fun f => AStr (fst f)) fields);
                     AList (map (fun f => ADs (snd f)) fields)] [] in
      Ok (Some t, ts3)
    else raise_error ts2 MField.

  (** [parse_funcproto_or_tuple_type], parser.py:549-590 *)
  Definition parse_funcproto_or_tuple (ts : toks) : P ty :=
    let! ts1 := advance ts in
    let! (ds, ts2) := hom_list rec KComma Trailing ts1 in
    if kind_is KRP ts2 then
      let! ts3 := advance ts2 in
      let args := AList (map ADs (opt_list ds)) in
      if kind_is KArrow ts3 then
        let! ts4 := advance ts3 in
        let! (ret, ts5) := rec ts4 in
        match ret with
        | None => raise_error ts5 MReturn
        | Some r =>
            let! con := sugar (st_dtype_constr sym) $"funcproto" $"(...) -> ... dtype constructor" ts in
            let! t := con [args; ADs r] [] in
            Ok (Some t, ts5)
        end
      else
        let! con := sugar (st_dtype_constr sym) $"tuple" $"(...) dtype constructor" ts in
        let! t := con [args] [] in
        Ok (Some t, ts3)
    else raise_error ts2 MTuple.

  (** [parse_dtype], parser.py:262-318 *)
  Definition parse_dtype (ts : toks) : P ty :=
    match tok_kind ts with
    | Some KUpper =>
        let v := tok_value ts in
        let! ts1 := advance ts in
        let! con := sugar (st_dtype_constr sym) $"typevar" $"TypeVar dtype constructor" ts in
        let! t := con [val_targ v] [] in
        Ok (Some t, ts1)
    | Some KLower =>
        let name := vstr (tok_value ts) in
        let! ts1 := advance ts in
        if kind_is KLBk ts1 then
          match st_dtype_constr sym name with
          | None => Ok (None, ts)
          | Some con =>
              let! ts2 := advance ts1 in
              let! (args, kwargs, ts3) := parse_type_arg_list ts2 in
              if kind_is KRBk ts3 then
                match args, kwargs with
                | [], [] => raise_error ts3 MNoArgument
                | _, _ =>
                    let! ts4 := advance ts3 in
                    let! t := con args kwargs in
                    Ok (Some t, ts4)
                end
              else raise_error ts3 MBadArgument
          end
        else
          match st_dtype sym name with
          | Some t => Ok (Some t, ts1)
          | None => Ok (None, ts)
          end
    | Some KLBc => parse_struct_type ts
    | Some KLP => parse_funcproto_or_tuple ts
    | _ => Ok (None, ts)
    end.

  (** [parse_dim], parser.py:176-260 *)
  Definition parse_dim (ts : toks) : P ty :=
    match tok_kind ts with
    | Some KUpper =>
        let v := tok_value ts in
        let! ts1 := advance ts in
        if kind_is KEll ts1 then
          let! ts2 := advance ts1 in
          let! con := sugar (st_dim_constr sym) $"ellipsis" $"TypeVar... dim constructor" ts in
          let! t := con (val_targ v) in
          Ok (Some t, ts2)
        else if kind_is KAst ts1 then
          let! con := sugar (st_dim_constr sym) $"typevar" $"TypeVar dim constructor" ts in
          let! t := con (val_targ v) in
          Ok (Some t, ts1)
        else Ok (None, ts)
    | Some KLower =>
        let name := vstr (tok_value ts) in
        let! ts1 := advance ts in
        if kind_is KLBk ts1 then
          match st_dim_constr sym name with
          | None => Ok (None, ts)
          | Some _ =>
              let! ts2 := advance ts1 in
              let! (_, _, ts3) := parse_type_arg_list ts2 in
              if kind_is KRBk ts3
              then let! _ := advance ts3 in Raise NotImplErr
              else raise_error ts3 MClosing
          end
        else
          match st_dim sym name with
          | Some t => Ok (Some t, ts1)
          | None => Ok (None, ts)
          end
    | Some KInt =>
        let v := tok_value ts in
        let! ts1 := advance ts in
        if kind_is KAst ts1 then
          let! con := sugar (st_dim_constr sym) $"fixed" $"integer dimensions" ts1 in
          let! t := con (val_targ v) in
          Ok (Some t, ts1)
        else Ok (None, ts)
    | Some KEll =>
        let! ts1 := advance ts in
        let! t := sugar (st_dim sym) $"ellipsis" $"... dim" ts in
        Ok (Some t, ts1)
    | _ => Ok (None, ts)
    end.

  (** the parameters of a parsed datashape, [dshape.parameters] *)
  Definition ds_params (t : ty) : list ty :=
    match t with DataShapeT _ ps => ps | _ => [t] end.

  (** [parse_datashape_nooption], parser.py:149-174 *)
  Definition parse_nooption (ts : toks) : P ty :=
    let! (dim, ts1) := parse_dim ts in
    let continue (ts1 : toks) : P ty :=
      let! (dt, ts2) := parse_dtype ts1 in
      match dt with
      | Some t => let! ds := mk_ds [t] in Ok (Some ds, ts2)
      | None => Ok (None, ts2)
      end in
    match dim with
    | Some d =>
        if kind_is KAst ts1 then
          let! ts2 := advance ts1 in
          let! (ds, ts3) := rec ts2 in
          match ds with
          | None => raise_error ts2 MDimOrDtype
          | Some t => let! t' := mk_ds (d :: ds_params t) in Ok (Some t', ts3)
          end
        else continue ts1
    | None => continue ts1
    end.

  (** [parse_datashape], parser.py:124-147 *)
  Definition parse_datashape_step (ts : toks) : P ty :=
    if kind_is KQ ts then
      let! ts1 := advance ts in
      let! (ds, ts2) := parse_nooption ts1 in
      match ds with
      | None => Ok (None, ts2)
      | Some t =>
          let! con := sugar (st_dtype_constr sym) $"option" $"option dtype construction" ts in
          let! o := con [ADs t] [] in
          let! d := mk_ds [o] in
          Ok (Some d, ts2)
      end
    else parse_nooption ts.
End Parser.

(** tying the recursion with fuel; [length ts] levels suffice (theorem in Proof_Parser) *)
Fixpoint parse_datashape (sym : symtab) (n : nat) (ts : toks) : P ty :=
  match n with
  | O => Raise OutOfFuel
  | S n' => parse_datashape_step sym (parse_datashape sym n') ts
  end.

(** parsing of a token stream: [parse], parser.py:593-612, after construction of the parser;
    the first [advance_tok] of the constructor raises if lexing fails at once. *)
Definition at_end (ts : toks) : bool := match ts with PEnd _ :: _ => true | _ => false end.
Definition parse_toks (sym : symtab) (ts : toks) : res ty :=
  match ts with
  | PErr e :: _ => Raise e
  | _ =>
      let! (ds, r) := parse_datashape sym (S (length ts)) ts in
      match ds with
      | None => raise_error r MInvalid
      | Some t => if at_end r then Ok t else raise_error r MUnexpected
      end
  end.
Definition parse (s : str) (sym : symtab) : res ty :=
  let (ts, err) := lex s in parse_toks sym (stream ts err 0).

(** ** validation.py *)

(** [_validate], validation.py:60-67 *)
Definition validate_ds (t : ty) : res unit :=
  match t with
  | DataShapeT _ ps =>
      if Nat.ltb 1 (length (filter is_Ellipsis ps)) then Raise TypeErr
      else if is_Ellipsis (last ps NullT) then Raise TypeErr
      else Ok tt
  | _ => Ok tt
  end.
(** [traverse(_validate, t)], validation.py:10-26: visits the parameters of every Mono that
    is not a Unit, parameters first. The parameters of Record and Tuple are one
    plain tuple, of a Categorical plain values and a type, so traverse does not enter
    record fields or tuple items. *)
Fixpoint validate (t : ty) : res unit :=
  match t with
  | DataShapeT _ ps | FunctionT ps =>
      let! _ := mapM validate ps in validate_ds t
  | OptionT t' => validate t'
  | MapT k v => let! _ := validate k in validate v
  | CategoricalT _ t' _ => validate t'
  | _ => Ok tt
  end.

(** ** util.dshape, util/__init__.py:31-56 *)

(** on strings, with a bound [m] on the nesting of strings inside strings *)
Fixpoint dshape_str (E : env) (m : nat) (s : str) : res ty :=
  match m with
  | O => Raise OutOfFuel
  | S m' =>
      let! t := parse s (default_sym E (dshape_str E m')) in
      let! _ := validate t in
      Ok t
  end.
(** [dshape(s)] for a string: strings nested in [s] are shorter than [s] *)
Definition dshape (E : env) (s : str) : res ty := dshape_str E (S (length s)) s.

(** on datashape objects *)
Definition dshape_ty (t : ty) : res ty :=
  match t with
  | DataShapeT _ _ => Ok t
  | _ =>
      let wrap := is_Unit t || match t with RecordT _ | JSONT => true | _ => false end in
      let! d := if wrap then mk_ds [t] else Ok t in
      let! _ := validate d in
      Ok d
  end.
(** on lists/tuples of components: [DataShape( *o)] *)
Definition dshape_list (E : env) (l : list parg) : res ty :=
  let! d := mk_datashape (fun s => dshape E s) None l in
  let! _ := validate d in
  Ok d.
