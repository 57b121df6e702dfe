(** Which data the types generated for OpenAPI schemas keep.

    A specification for GoJson.v, in terms of schemas and data only. It covers the
    schemas of GenTypeSpec.v. *)
From Verif Require Import Prelude Strings Version Util GenName GenNameProofs GenType GenTypeSpec GoJson.
Require Import ZArith.
Local Open Scope string_scope.
Local Open Scope list_scope.

(** *** Order of members *)

(** The names are in increasing order. Objects have no order; this fixes one, so
    that data can be compared by [=]. *)
Definition before (a b : string) : Prop := str_leb a b = true /\ a <> b.
Fixpoint increasing (l : list string) : Prop :=
  match l with
  | [] => True
  | a :: r => (forall b, In b r -> before a b) /\ increasing r
  end.

(** *** Scalars *)

Definition within_bits (p z : Z) : Prop := (Z.abs z <= 2 ^ p)%Z.

Definition int_bounds : list (string * (Z * Z)) :=
  [("int8", (- 2 ^ 7, 2 ^ 7 - 1)); ("int16", (- 2 ^ 15, 2 ^ 15 - 1)); ("int32", (- 2 ^ 31, 2 ^ 31 - 1));
   ("uint8", (0, 2 ^ 8 - 1)); ("uint16", (0, 2 ^ 16 - 1)); ("uint32", (0, 2 ^ 32 - 1));
   ("uint64", (0, 2 ^ 64 - 1)); ("uint", (0, 2 ^ 64 - 1))]%Z.

(** Strings that do not become Go types of their own. *)
Definition other_strings : list string := ["byte"; "binary"; "date-time"; "date"; "email"; "uuid"; "json"].

(** Numbers without a format are [float32]. *)
Definition keeps_scalar (t f : string) (j : json) : Prop :=
  match j with
  | JBool _ => t = "boolean" /\ f = ""
  | JStr _ => t = "string" /\ ~ In f other_strings
  | JNum z =>
      (t = "integer" /\
       let (lo, hi) := match lookup f int_bounds with Some b => b | None => (- 2 ^ 63, 2 ^ 63 - 1)%Z end in
       (lo <= z <= hi)%Z) \/
      (t = "number" /\ (f = "double" /\ within_bits 53 z \/ (f = "float" \/ f = "") /\ within_bits 24 z))
  | _ => False
  end.

(** Data for which nothing is known. *)
Fixpoint keeps_any (j : json) : Prop :=
  match j with
  | JNum z => within_bits 53 z
  | JArr l => (fix go (l : list json) : Prop := match l with [] => True | x :: r => keeps_any x /\ go r end) l
  | JObj ms =>
      increasing (map fst ms) /\
      (fix go (l : list (string * json)) : Prop := match l with [] => True | x :: r => keeps_any (snd x) /\ go r end) ms
  | _ => True
  end.

(** *** Schemas *)

(** What the data of a schema becomes in Go. [KOther]: types of packages. *)
Inductive kind := KStruct | KMap | KSlice | KAny | KScalar | KOther.

Definition kind_of (s : schema) : kind :=
  match s with
  | Sch b props _ addl _ anyOf oneOf =>
      if objectlike b then
        if nonempty props || has_list anyOf || has_list oneOf then KStruct
        else if b_has b || match addl with Some _ => true | None => false end || String.eqb (b_type b) "object"
             then KMap else KAny
      else if arraylike b || String.eqb (b_type b) "string" && existsb (String.eqb (b_format b)) ["byte"; "binary"]
           then KSlice
      else if String.eqb (b_type b) "string" && existsb (String.eqb (b_format b)) other_strings then KOther
      else KScalar
  end.

(** The data of the kind that [omitempty] leaves out. *)
Definition empty_of (k : kind) (j : json) : Prop :=
  match k, j with
  | KMap, JObj [] | KSlice, JArr [] => True
  | KAny, JNull => True
  | KScalar, JBool false | KScalar, JStr "" => True
  | KScalar, JNum z => z = 0%Z
  | _, _ => False
  end.

Section Keeps.
(** What references stand for, and the components of the document. *)
Variable env : string -> schema.
Variable comps : list (string * sref).
(** Whether [NoOptionalPointers] is set. *)
Variable no_pointers : bool.

Definition kind_at (r : sref) : kind := match r with Inl s => kind_of s | Ref r => kind_of (env r) end.

(** Data that a schema allows, for the parts of schemas that Go types depend on.
    Without [additionalProperties] there are no members but the properties: the
    schemas of thema are closed. *)
Inductive valid : sref -> json -> Prop :=
| valid_ref n s j : In (n, Inl s) comps -> valid (Inl s) j -> valid (Ref (ref_to n)) j
| valid_null s : b_nullable (s_base s) = true -> valid (Inl s) JNull
| valid_bool s x : b_type (s_base s) = "boolean" -> valid (Inl s) (JBool x)
| valid_str s x : b_type (s_base s) = "string" -> valid (Inl s) (JStr x)
| valid_num s z : b_type (s_base s) = "integer" \/ b_type (s_base s) = "number" -> valid (Inl s) (JNum z)
| valid_list b props items addl l :
    b_type b = "array" -> (forall r x, items = Some r -> In x l -> valid r x) ->
    valid (Inl (Sch b props items addl None None None)) (JArr l)
| valid_any b items j :
    b_type b = "" -> valid (Inl (Sch b [] items None None None None)) j
| valid_object b props items addl ms :
    objectlike b = true -> NoDup (map fst ms) ->
    (forall k r x, In (k, r) props -> In (k, x) ms -> valid r x) ->
    (forall k, In k (b_required b) -> In k (map fst props) -> In k (map fst ms)) ->
    (forall k x r, In (k, x) ms -> ~ In k (map fst props) -> addl = Some r -> valid r x) ->
    (forall k x, In (k, x) ms -> ~ In k (map fst props) ->
       b_has b = true \/ addl <> None \/ b_type b = "object" /\ props = []) ->
    valid (Inl (Sch b props items addl None None None)) (JObj ms).

(** Whether a property that may be missing or null has a pointer in the end: with
    [NoOptionalPointers] it never has, else unless that would be a pointer to a
    slice or a map, or to raw JSON. *)
Definition pointer_stays (r : sref) : bool :=
  negb no_pointers &&
  match r with
  | Ref _ => true
  | Inl s => negb (skips r) && (enumlike (s_base s) || match kind_of s with KMap | KSlice => false | _ => true end)
  end.

(** Whether the property is left out when it is empty. *)
Definition left_out (required : bool) (b : base) : bool :=
  negb (b_nullable b) && (negb required || b_readonly b || b_writeonly b).

Definition known (r : sref) : Prop :=
  match r with Ref q => exists n s, q = ref_to n /\ In (n, Inl s) comps | Inl _ => True end.

(** Names that are exported and that tags can have. *)
Definition good_name (n : string) : Prop := letter_first n = true /\ all tag_char n = true.

Inductive keeps : sref -> json -> Prop :=
| keeps_ref n s j : In (n, Inl s) comps -> keeps (Inl s) j -> keeps (Ref (ref_to n)) j
| keeps_atom b props items addl j :
    objectlike b = false -> arraylike b = false ->
    keeps_scalar (b_type b) (b_format b) j ->
    keeps (Inl (Sch b props items addl None None None)) j
| keeps_list b props items addl l :
    arraylike b = true -> b_enum b = [] ->
    (forall r x, items = Some r -> In x l -> keeps r x) ->
    (forall x, items = None -> In x l -> keeps_any x) ->
    keeps (Inl (Sch b props items addl None None None)) (JArr l)
| keeps_map b items addl ms :
    kind_of (Sch b [] items addl None None None) = KMap ->
    increasing (map fst ms) ->
    (forall r k x, addl = Some r -> In (k, x) ms -> keeps r x) ->
    (forall k x, addl = None -> In (k, x) ms -> keeps_any x) ->
    keeps (Inl (Sch b [] items addl None None None)) (JObj ms)
| keeps_all b items j :
    kind_of (Sch b [] items None None None None) = KAny ->
    keeps_any j ->
    keeps (Inl (Sch b [] items None None None None)) j
| keeps_struct b props items ms :
    objectlike b = true -> props <> [] -> b_has b = false ->
    NoDup (map fst props) -> (forall p, In p props -> good_name (fst p) /\ known (snd p)) ->
    increasing (map fst ms) ->
    (forall k x, In (k, x) ms -> exists r, In (k, r) props /\
       let b' := s_base (value env r) in
       let out := left_out (existsb (String.eqb k) (b_required b)) b' in
       let stays := pointer_stays r in
       (x = JNull /\ out = false /\
        (b_nullable b' = true /\ (stays = true \/ kind_at r = KMap \/ kind_at r = KSlice) \/
         kind_at r = KAny /\ keeps r JNull)) \/
       (x <> JNull /\ keeps r x /\ (out = false \/ stays = true \/ ~ empty_of (kind_at r) x))) ->
    (forall k r, In (k, r) props -> ~ In k (map fst ms) ->
       let b' := s_base (value env r) in
       existsb (String.eqb k) (b_required b) = false /\ b_nullable b' = false /\
       (pointer_stays r = true \/ kind_at r <> KStruct /\ kind_at r <> KOther)) ->
    keeps (Inl (Sch b props items None None None None)) (JObj ms).
End Keeps.
