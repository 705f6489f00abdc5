(** discovery.py on mappings whose keys need not be strings. *)
From Verif Require Import Base Types Lexer Printer Construct Parser Ops Preds Numpy Graph Discovery.
Local Open Scope Z_scope.

(** Keys of dicts: ints, bools, strings and None. Simplification: other hashable objects
    (floats, bytes, tuples, dates) are left out. *)
Inductive key := KyInt (z : Z) | KyBool (b : bool) | KyStr (s : str) | KyNone.
(** the value of a key in comparisons; bool is a subclass of int *)
Definition key_num (k : key) : option Z :=
  match k with KyInt z => Some z | KyBool b => Some (if b then 1 else 0) | _ => None end.
(** [==] (and [hash]) of keys, Python: True == 1, False == 0 *)
Definition key_eqb (a b : key) : bool :=
  match key_num a, key_num b with
  | Some x, Some y => x =? y
  | _, _ => match a, b with
            | KyStr s, KyStr t => str_eqb s t
            | KyNone, KyNone => true
            | _, _ => false
            end
  end.
(** [str(name)] when it is not a string, coretypes.py:1050-1053 *)
Definition key_str (k : key) : str :=
  match k with
  | KyInt z => z2s z
  | KyBool b => bool_str b
  | KyStr s => s
  | KyNone => $"None"
  end.

(** [sorted] on items: nothing is compared when there is at most one; numbers are ordered by
    value, strings by code points; comparing any two others is a TypeError. (Whatever the
    algorithm, a sort of two or more elements that succeeds has compared a chain connecting all
    of them, so it must have met such a pair if there are two kinds of keys.) *)
Fixpoint insert_kv {B} (leb : key -> key -> bool) (f : key * B) (l : list (key * B)) : list (key * B) :=
  match l with
  | [] => [f]
  | g :: r => if leb (fst f) (fst g) then f :: l else g :: insert_kv leb f r
  end.
Definition num_leb (a b : key) : bool :=
  match key_num a, key_num b with Some x, Some y => x <=? y | _, _ => false end.
Definition kstr_leb (a b : key) : bool :=
  match a, b with KyStr s, KyStr t => str_leb s t | _, _ => false end.
Definition is_num (k : key) : bool := match key_num k with Some _ => true | None => false end.
Definition is_kstr (k : key) : bool := match k with KyStr _ => true | _ => false end.
Definition py_sorted {B} (l : list (key * B)) : res (list (key * B)) :=
  match l with
  | [] => Ok []
  | [x] => Ok [x]
  | _ => if forallb (fun f => is_num (fst f)) l then Ok (fold_right (insert_kv num_leb) [] l)
         else if forallb (fun f => is_kstr (fst f)) l then Ok (fold_right (insert_kv kstr_leb) [] l)
         else Raise TypeErr
  end.
(** [set.union( *(set(d) for d in seq))], discovery.py:219: of equal keys the first one stays *)
Fixpoint add_key (k : key) (l : list key) : list key :=
  match l with
  | [] => [k]
  | g :: r => if key_eqb g k then l else g :: add_key k r
  end.
Definition key_set (l : list key) : list key := fold_left (fun s k => add_key k s) l [].
(** [item.get(key)] *)
Fixpoint key_get {B} (k : key) (d : list (key * B)) : option B :=
  match d with
  | [] => None
  | g :: r => if key_eqb (fst g) k then Some (snd g) else key_get k r
  end.

(** Values in which mappings have such keys, at any depth. [KV] is any value of Discovery.v:
    scalars, arrays, and containers all of whose mappings have string keys. *)
Inductive kval :=
| KV (v : dval)
| KSeq (k : seqkind) (l : list kval)
| KMap (k : mapkind) (l : list (key * kval)).

Section Keys.
  Variables (sc : sched) (so : strings).

  (** the [dict] branch for sequences, discovery.py:218-226; [sorted] is outside the [try] *)
  Definition kget_or_null (k : key) (d : list (key * res ty)) : res ty :=
    match key_get k d with Some r => r | None => Ok NullT end.
  Definition kdict_columns (keys : list key) (dicts : list (list (key * res ty))) : res ty :=
    let! types := mapM (fun k => column_type sc (map (kget_or_null k) dicts)) keys in
    let! r := mk_record no_dsh (map (fun kt => (key_str (fst kt), PTy (snd kt))) (combine keys types)) in
    mul_int (len dicts) r.
  Definition kdiscover_dicts (dicts : list (list (key * res ty))) (fallback : res ty) : res ty :=
    let! ks := py_sorted (map (fun k => (k, tt)) (key_set (flat_map (map fst) dicts))) in
    on_attribute_error (kdict_columns (map fst ks) dicts) fallback.
  (** [discover] on sequences, discovery.py:200-229, as [discover_seq] of Discovery.v *)
  Definition kdiscover_seq (own : list (res ty)) (rows : list (option (list (res ty))))
      (dicts : list (option (list (key * res ty)))) : res ty :=
    match own with
    | [] => mul_ty VarT string_t
    | _ =>
        let fallback := let! types := mapM (fun r => r) own in unite_final types in
        let step2 := match all_some dicts with
                     | Some ds => kdiscover_dicts ds fallback
                     | None => fallback
                     end in
        match all_some rows with
        | Some rs => if same_lengths rs then on_attribute_error (discover_rows sc rs) step2 else step2
        | None => step2
        end
    end.
  (** [Record((k, discover(v)) for ...)], discovery.py:366-374 *)
  Definition kdiscover_items (items : list (key * res ty)) : res ty :=
    let! fs := mapM (fun kr : key * res ty => let! t := snd kr in Ok (key_str (fst kr), PTy t)) items in
    mk_record no_dsh fs.
  (** [discover]; [sorted(m)] runs before the first value is looked at, discovery.py:369 *)
  Fixpoint kdiscover (v : kval) : res ty :=
    match v with
    | KV v => discover sc so v
    | KSeq _ l =>
        kdiscover_seq (map kdiscover l)
          (map (fun x => match x with
                         | KSeq KList l2 | KSeq KTuple l2 => Some (map kdiscover l2)
                         | KV (DSeq KList l2) | KV (DSeq KTuple l2) => Some (map (discover sc so) l2)
                         | _ => None
                         end) l)
          (map (fun x => match x with
                         | KMap KDict d | KMap KOrdered d =>
                             Some (map (fun kv => (fst kv, kdiscover (snd kv))) d)
                         | KV (DMap KDict d) | KV (DMap KOrdered d) =>
                             Some (map (fun kv => (KyStr (fst kv), discover sc so (snd kv))) d)
                         | _ => None
                         end) l)
    | KMap KOrdered d => kdiscover_items (map (fun kv => (fst kv, kdiscover (snd kv))) d)
    | KMap _ d =>
        let! s := py_sorted (map (fun kv => (fst kv, kdiscover (snd kv))) d) in
        kdiscover_items s
    end.
End Keys.
