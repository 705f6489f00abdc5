(** Keys of dicts as Python sees them, and the records [discover] is to build from them. *)
From Verif Require Import Base Types Printer Discovery Keys Spec_Discovery.
From Coq Require Import Permutation Sorting.Sorted.
Local Open Scope Z_scope.

(** bools are numbers *)
Inductive Number : key -> Z -> Prop :=
| nu_int z : Number (KyInt z) z
| nu_true : Number (KyBool true) 1
| nu_false : Number (KyBool false) 0.
(** equal keys: [1 == True] *)
Inductive SameKey : key -> key -> Prop :=
| sk_same k : SameKey k k
| sk_number a b z : Number a z -> Number b z -> SameKey a b.
(** the order of keys: numbers by value, strings by code points, nothing else is ordered *)
Inductive KeyLt : key -> key -> Prop :=
| kl_number a b x y : Number a x -> Number b y -> x < y -> KeyLt a b
| kl_string s t : StrLt s t -> KeyLt (KyStr s) (KyStr t).
(** any two different keys can be compared *)
Definition Sortable (l : list key) : Prop :=
  forall a b, In a l -> In b l -> SameKey a b \/ KeyLt a b \/ KeyLt b a.
(** the keys of a dict are pairwise different *)
Definition Different (l : list key) : Prop := ForallOrdPairs (fun a b => ~ SameKey a b) l.
(** the field name for a key: [str(key)] *)
Inductive KeyName : key -> str -> Prop :=
| kn_int z : KeyName (KyInt z) (z2s z)
| kn_true : KeyName (KyBool true) $"True"
| kn_false : KeyName (KyBool false) $"False"
| kn_str s : KeyName (KyStr s) s
| kn_none : KeyName KyNone $"None".

(** the type of a field whose value was found to have type [u]: a DataShape with one component
    stands for that component *)
Definition FieldType (u F : ty) : Prop :=
  (exists n, u = DataShapeT n [F]) \/ ((forall n x, u <> DataShapeT n [x]) /\ F = u).
(** the fields for the items [d], visited in this order; the first value that cannot be typed
    decides *)
Inductive Fields (disc : kval -> res ty) : list (key * kval) -> res (list (str * ty)) -> Prop :=
| fi_nil : Fields disc [] (Ok [])
| fi_cons k v d n u F fs : disc v = Ok u -> KeyName k n -> FieldType u F ->
    Fields disc d (Ok fs) -> Fields disc ((k, v) :: d) (Ok ((n, F) :: fs))
| fi_fails k v d e : disc v = Raise e -> Fields disc ((k, v) :: d) (Raise e)
| fi_later k v d u e : disc v = Ok u -> Fields disc d (Raise e) -> Fields disc ((k, v) :: d) (Raise e).

(** the type of the entry of [d] under a key equal to [k], null when there is none *)
Definition KeyEntry (disc : kval -> res ty) (k : key) (d : list (key * kval)) (t : ty) : Prop :=
  (exists k' v, In (k', v) d /\ SameKey k' k /\ disc v = Ok t) \/
  ((forall k', In k' (map fst d) -> ~ SameKey k' k) /\ t = NullT).
(** [k] is the first among the keys [l] that are equal to it *)
Definition FirstOf (l : list key) (k : key) : Prop :=
  exists p q, l = p ++ k :: q /\ forall k', In k' p -> ~ SameKey k' k.

(** a value all of whose mappings have string keys, as a value with keys *)
Fixpoint lift (v : dval) : kval :=
  match v with
  | DSeq k l => KSeq k (map lift l)
  | DMap k d => KMap k (map (fun kv => (KyStr (fst kv), lift (snd kv))) d)
  | _ => KV v
  end.

From Verif Require Import Spec_Found Spec_WF.
(** [n] is the name of a key of a mapping, or of an array field, somewhere in [v] *)
Inductive KKeyOf (n : str) : kval -> Prop :=
| kk_value v : KeyOf n v -> KKeyOf n (KV v)
| kk_here k d a x : In (a, x) d -> KeyName a n -> KKeyOf n (KMap k d)
| kk_map k d a x : In (a, x) d -> KKeyOf n x -> KKeyOf n (KMap k d)
| kk_seq k l x : In x l -> KKeyOf n x -> KKeyOf n (KSeq k l).
(** as [Finds] of Spec_Found.v *)
Definition KFinds (v : kval) (r : res ty) : Prop :=
  match r with
  | Ok t => WF t /\ ~ DimensionClass t /\ (forall u, Occurs u t -> DataType u) /\
            (forall fs n, Occurs (RecordT fs) t -> In n (map fst fs) -> KKeyOf n v)
  | Raise e => real_exn e
  end.

From Verif Require Import Spec_Dicts.
(** [w] is [v] with the items of some dicts (or mapping proxies) inserted in another order, at any
    depth, as [SameData] of Spec_Dicts.v *)
Inductive SameKeyData : kval -> kval -> Prop :=
| skd_refl v : SameKeyData v v
| skd_value v w : SameData v w -> SameKeyData (KV v) (KV w)
| skd_seq k l m : Forall2 SameKeyData l m -> SameKeyData (KSeq k l) (KSeq k m)
| skd_map k l l' m : (k = KOrdered -> l' = l) -> Permutation l l' ->
    Forall2 (fun x y => fst x = fst y /\ SameKeyData (snd x) (snd y)) l' m ->
    SameKeyData (KMap k l) (KMap k m).
(** the keys of every dict are pairwise different *)
Inductive ValidKeys : kval -> Prop :=
| vk_value v : ValidDicts v -> ValidKeys (KV v)
| vk_seq k l : Forall ValidKeys l -> ValidKeys (KSeq k l)
| vk_map k l : Different (map fst l) -> Forall (fun kv => ValidKeys (snd kv)) l -> ValidKeys (KMap k l).
