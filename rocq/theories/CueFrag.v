(** A fragment of CUE values with the operations of the CUE Go API that
    thema calls on them: [Value.Subsume], [Value.Expr], [Value.Default],
    [Value.IncompleteKind], [Value.Unify], [Value.FillPath],
    [Value.Fields], [Value.LookupPath].

    CUE is a dependency of /repo (go.mod:8,11), not code of it: this file is the
    model's account of CUE, restricted to the values listed in [val], and
    belongs to the trusted base. The behaviours it fixes are those that the
    comments and test data of /repo rely on; each is cited where it is defined.
    Left out: regular expressions and other validators, references and cycles,
    definitions and hidden fields, attributes, comprehensions, bounds on other
    things than integers. *)
From Verif Require Import Prelude.
Local Open Scope string_scope.
Local Open Scope list_scope.

(** Concrete scalars. Floats are opaque decimal texts. *)
Inductive atom :=
| ANull
| ABool (b : bool)
| AInt (z : Z)
| AFloat (s : string)
| AString (s : string)
| ABytes (s : string).

Definition atom_eqb (x y : atom) : bool :=
  match x, y with
  | ANull, ANull => true
  | ABool a, ABool b => Bool.eqb a b
  | AInt a, AInt b => (a =? b)%Z
  | AFloat a, AFloat b => String.eqb a b
  | AString a, AString b => String.eqb a b
  | ABytes a, ABytes b => String.eqb a b
  | _, _ => false
  end.

(** Predeclared basic types. *)
Inductive bty := TBool | TInt | TFloat | TNumber | TString | TBytes.

(** CUE values.
    - [VRange lo hi] is [int & >=lo & <=hi], such as [int32] or [uint8];
    - [VOr] is a disjunction whose disjuncts carry their default mark;
    - [VList es (Some r)] is [[es, ...r]], [VList es None] the closed list [[es]];
    - [VStruct fs rest] has the fields [fs], each a label, whether it is
      optional, and its value. Fields not among them are forbidden for [None]
      (a closed struct), must satisfy [r] for [Some r]: [{..., [string]: r}], and
      [Some VTop] is an open struct. *)
Inductive val :=
| VBot
| VTop
| VAtom (a : atom)
| VType (t : bty)
| VRange (lo hi : option Z)
| VOr (ds : list (bool * val))
| VList (es : list val) (rest : option val)
| VStruct (fs : list (string * bool * val)) (rest : option val).

(** Concrete data: what JSON decodes to. *)
Inductive data :=
| DAtom (a : atom)
| DList (l : list data)
| DStruct (l : list (string * data)).

Definition type_has (t : bty) (a : atom) : bool :=
  match t, a with
  | TBool, ABool _ | TInt, AInt _ | TFloat, AFloat _ | TNumber, AInt _
  | TNumber, AFloat _ | TString, AString _ | TBytes, ABytes _ => true
  | _, _ => false
  end.

Definition type_sub (t t' : bty) : bool :=
  match t, t' with
  | TBool, TBool | TInt, TInt | TFloat, TFloat | TNumber, TNumber | TString, TString
  | TBytes, TBytes | TNumber, TInt | TNumber, TFloat => true
  | _, _ => false
  end.

Definition in_lo (lo : option Z) (z : Z) : bool :=
  match lo with None => true | Some l => (l <=? z)%Z end.
Definition in_hi (hi : option Z) (z : Z) : bool :=
  match hi with None => true | Some h => (z <=? h)%Z end.

Definition lo_sub (lo lo' : option Z) : bool :=
  match lo, lo' with
  | None, _ => true
  | Some l, Some l' => (l <=? l')%Z
  | Some _, None => false
  end.
Definition hi_sub (hi hi' : option Z) : bool :=
  match hi, hi' with
  | None, _ => true
  | Some h, Some h' => (h' <=? h)%Z
  | Some _, None => false
  end.

Definition flabel (f : string * bool * val) : string := fst (fst f).
Definition fopt (f : string * bool * val) : bool := snd (fst f).
Definition fval (f : string * bool * val) : val := snd f.

Definition field_of (l : string) (fs : list (string * bool * val)) : option (string * bool * val) :=
  find (fun f => String.eqb l (flabel f)) fs.

Fixpoint lookup (l : string) (df : list (string * data)) : option data :=
  match df with
  | [] => None
  | (k, x) :: r => if String.eqb l k then Some x else lookup l r
  end.

Definition has_label (l : string) (df : list (string * data)) : bool :=
  existsb (fun kx => String.eqb l (fst kx)) df.

(** *** Subsumption *)

(** [a.Subsume(b, cue.Raw(), ...)]: is [b] an instance of [a]? Taking default
    marks into account, as [cue.Raw] asks for: a default of [b] must be covered
    by a default of [a] unless [a] has none
    ([testdata/invalidlineage/compat/change-default.txtar]); a field regular in
    [a] must be regular in [b] ([optional-to-required.txtar],
    [add-required.txtar]); a field of [b] must be allowed by [a]
    ([remove-optional.txtar], [remove-required.txtar]). *)
Fixpoint subs (a : val) : val -> bool :=
  fix subs_b (b : val) : bool :=
  match b with
  | VBot => true
  | VOr ys =>
      match a with
      | VTop => true
      | VOr xs =>
          forallb (fun y : bool * val =>
            existsb (fun x : bool * val =>
              subs (snd x) (snd y) && (negb (fst y) || fst x || negb (existsb fst xs))) xs) ys
      | _ => forallb (fun y : bool * val => subs_b (snd y)) ys
      end
  | _ =>
      match a with
      | VTop => true
      | VBot => false
      | VOr xs => existsb (fun x : bool * val => subs (snd x) b) xs
      | VAtom x => match b with VAtom y => atom_eqb x y | _ => false end
      | VType t =>
          match b with
          | VAtom y => type_has t y
          | VType t' => type_sub t t'
          | VRange _ _ => type_sub t TInt
          | _ => false
          end
      | VRange lo hi =>
          match b with
          | VAtom (AInt z) => in_lo lo z && in_hi hi z
          | VRange lo' hi' => lo_sub lo lo' && hi_sub hi hi'
          | _ => false
          end
      | VList es r =>
          match b with
          | VList es' r' =>
              (fix go (es : list val) (es' : list val) : bool :=
                 match es, es' with
                 | [], _ =>
                     match r with
                     | Some u => forallb (subs u) es'
                         && match r' with None => true | Some w => subs u w end
                     | None => match es', r' with [], None => true | _, _ => false end
                     end
                 | _ :: _, [] => false
                 | e :: t, e' :: t' => subs e e' && go t t'
                 end) es es'
          | _ => false
          end
      | VStruct fs rest =>
          match b with
          | VStruct fs' rest' =>
              forallb (fun f : string * bool * val =>
                match field_of (fst (fst f)) fs' with
                | Some f' => (snd (fst f) || negb (fopt f')) && subs (snd f) (fval f')
                | None =>
                    snd (fst f)
                    && match rest' with None => true | Some w => subs (snd f) w end
                end) fs
              && forallb (fun f' =>
                   match field_of (flabel f') fs with
                   | Some _ => true
                   | None => match rest with None => false | Some u => subs u (fval f') end
                   end) fs'
              && match rest' with
                 | None => true
                 | Some w => match rest with None => false | Some u => subs u w end
                 end
          | _ => false
          end
      end
  end.

(** The default of a value, at every level: what the subsumption without
    [cue.Raw] looks at in place of [b]. Marked disjuncts replace the
    disjunction, and an open list stands for the closed list of its elements. *)
Fixpoint strip (v : val) : val :=
  match v with
  | VOr ds =>
      VOr (flat_map (fun d : bool * val =>
             if fst d || negb (existsb fst ds) then [(false, strip (snd d))] else []) ds)
  | VList es _ => VList (map strip es) None
  | VStruct fs rest => VStruct (map (fun f : string * bool * val => (fst f, strip (snd f))) fs) rest
  | _ => v
  end.

(** [a.Subsume(b)] and [a.Subsume(b, cue.Schema())]: without [cue.Raw] the
    default of [b] is used. [cue.Schema] ignores closedness, which matters only
    when the two are structs; that is not modelled. *)
Definition subs_default (a b : val) : bool := subs a (strip b).

(** *** [Value.Expr] *)

(** The operands of a disjunction and whether the operator is [cue.OrOp]. A
    default that another, unmarked, disjunct subsumes is left out, and when a
    single operand remains there is no operator: [assignable.go:180-182], and the
    tests "nestedStructDefault", "sliceWithDefault" and "multiTypeList". *)
Definition expr_kept (ds : list (bool * val)) : list val :=
  flat_map (fun d : bool * val =>
    if fst d && existsb (fun e : bool * val => negb (fst e) && subs (snd e) (snd d)) ds
    then [] else [snd d]) ds.

Definition expr (v : val) : bool * list val :=
  match v with
  | VOr ds => let k := expr_kept ds in (Nat.ltb 1 (List.length k), k)
  | _ => (false, [v])
  end.

(** *** [Value.Default] *)

Definition default (v : val) : val * bool :=
  match v with
  | VOr ds =>
      match filter fst ds with
      | [] => (v, false)
      | [d] => (snd d, true)
      | l => (VOr (map (fun d => (false, snd d)) l), true)
      end
  | VList es (Some _) => (VList es None, true)
  | _ => (v, false)
  end.

(** *** [Value.IncompleteKind] *)

Record kinds := mkK
  { k_null : bool; k_bool : bool; k_int : bool; k_float : bool;
    k_string : bool; k_bytes : bool; k_list : bool; k_struct : bool }.

Definition k_bottom := mkK false false false false false false false false.
Definition k_top := mkK true true true true true true true true.

Definition k_or (a b : kinds) : kinds :=
  mkK (k_null a || k_null b) (k_bool a || k_bool b) (k_int a || k_int b) (k_float a || k_float b)
      (k_string a || k_string b) (k_bytes a || k_bytes b) (k_list a || k_list b)
      (k_struct a || k_struct b).

Definition k_eqb (a b : kinds) : bool :=
  Bool.eqb (k_null a) (k_null b) && Bool.eqb (k_bool a) (k_bool b) && Bool.eqb (k_int a) (k_int b)
  && Bool.eqb (k_float a) (k_float b) && Bool.eqb (k_string a) (k_string b)
  && Bool.eqb (k_bytes a) (k_bytes b) && Bool.eqb (k_list a) (k_list b)
  && Bool.eqb (k_struct a) (k_struct b).

(** [k &^ cue.NullKind]. *)
Definition no_null (k : kinds) : kinds :=
  mkK false (k_bool k) (k_int k) (k_float k) (k_string k) (k_bytes k) (k_list k) (k_struct k).

Definition k_of_type (t : bty) : kinds :=
  match t with
  | TBool => mkK false true false false false false false false
  | TInt => mkK false false true false false false false false
  | TFloat => mkK false false false true false false false false
  | TNumber => mkK false false true true false false false false
  | TString => mkK false false false false true false false false
  | TBytes => mkK false false false false false true false false
  end.

Definition k_of_atom (a : atom) : kinds :=
  match a with
  | ANull => mkK true false false false false false false false
  | ABool _ => k_of_type TBool
  | AInt _ => k_of_type TInt
  | AFloat _ => k_of_type TFloat
  | AString _ => k_of_type TString
  | ABytes _ => k_of_type TBytes
  end.

Definition k_of_list := mkK false false false false false false true false.
Definition k_of_struct := mkK false false false false false false false true.

Fixpoint kind (v : val) : kinds :=
  match v with
  | VBot => k_bottom
  | VTop => k_top
  | VAtom a => k_of_atom a
  | VType t => k_of_type t
  | VRange _ _ => k_of_type TInt
  | VOr ds => fold_right (fun d k => k_or (kind (snd d)) k) k_bottom ds
  | VList _ _ => k_of_list
  | VStruct _ _ => k_of_struct
  end.

(** *** Fields and elements *)

(** [Value.Fields(cue.Optional(true))]; [None] is an error. The default of a
    disjunction is used (test "nestedStructDefault" of [assignable_test.go]). *)
Definition fields (v : val) : option (list (string * bool * val)) :=
  match fst (default v) with
  | VStruct fs _ => Some fs
  | _ => None
  end.

(** [Value.LookupPath] of one field; only fields that are present. *)
Definition lookup_field (v : val) (l : string) : option val :=
  match v with
  | VStruct fs _ =>
      match field_of l fs with
      | Some f => if fopt f then None else Some (fval f)
      | None => None
      end
  | _ => None
  end.

(** [Value.LookupPath(cue.MakePath(cue.AnyIndex))]: the type of the further
    elements of an open list. *)
Definition any_index (v : val) : option val :=
  match v with VList _ r => r | _ => None end.

(** *** Unification *)

Definition zmax (a b : option Z) : option Z :=
  match a, b with Some x, Some y => Some (Z.max x y) | None, o => o | o, None => o end.
Definition zmin (a b : option Z) : option Z :=
  match a, b with Some x, Some y => Some (Z.min x y) | None, o => o | o, None => o end.

Definition mk_range (lo hi : option Z) : val :=
  match lo, hi with
  | Some l, Some h =>
      if (h <? l)%Z then VBot else if (l =? h)%Z then VAtom (AInt l) else VRange lo hi
  | _, _ => VRange lo hi
  end.

Definition unify_scalar (x y : val) : val :=
  match x, y with
  | VAtom a, VAtom b => if atom_eqb a b then x else VBot
  | VAtom a, VType t | VType t, VAtom a => if type_has t a then VAtom a else VBot
  | VAtom (AInt z), VRange lo hi | VRange lo hi, VAtom (AInt z) =>
      if in_lo lo z && in_hi hi z then VAtom (AInt z) else VBot
  | VType t, VType t' => if type_sub t t' then y else if type_sub t' t then x else VBot
  | VType t, VRange _ _ => if type_sub t TInt then y else VBot
  | VRange _ _, VType t => if type_sub t TInt then x else VBot
  | VRange lo hi, VRange lo' hi' => mk_range (zmax lo lo') (zmin hi hi')
  | _, _ => VBot
  end.

Definition is_bot (v : val) : bool := match v with VBot => true | _ => false end.

(** A disjunction after evaluation: failed disjuncts are dropped, and a single
    survivor is the value itself. *)
Definition mk_or (ds : list (bool * val)) : val :=
  match filter (fun d => negb (is_bot (snd d))) ds with
  | [] => VBot
  | [d] => snd d
  | l => VOr l
  end.

(** A struct or list is bottom as soon as one of its present parts is. *)
Definition mk_struct (fs : list (string * bool * val)) (rest : option val) : val :=
  if existsb (fun f => negb (fopt f) && is_bot (fval f)) fs then VBot else VStruct fs rest.

Definition mk_list (es : list val) (rest : option val) : val :=
  if existsb is_bot es then VBot
  else VList es (match rest with Some VBot => None | _ => rest end).

(** [x.Unify(y)]. The default of a unification of disjunctions is the
    unification of their defaults. *)
Fixpoint unify (x : val) : val -> val :=
  fix unify_y (y : val) : val :=
  match x, y with
  | VBot, _ | _, VBot => VBot
  | VTop, _ => y
  | _, VTop => x
  | VOr xs, VOr ys =>
      let mx := existsb fst xs in
      let my := existsb fst ys in
      mk_or (flat_map (fun d : bool * val =>
               map (fun e : bool * val =>
                 ((mx || my) && (fst d || negb mx) && (fst e || negb my),
                  unify (snd d) (snd e))) ys) xs)
  | VOr xs, _ => mk_or (map (fun d : bool * val => (fst d, unify (snd d) y)) xs)
  | _, VOr ys => mk_or (map (fun e : bool * val => (fst e, unify_y (snd e))) ys)
  | VList es r, VList es' r' =>
      match (fix go (es es' : list val) : option (list val) :=
               match es, es' with
               | [], [] => Some []
               | [], _ =>
                   match r with Some u => Some (map (unify u) es') | None => None end
               | _, [] =>
                   match r' with Some w => Some (map (fun e => unify e w) es) | None => None end
               | e :: t, e' :: t' =>
                   match go t t' with Some l => Some (unify e e' :: l) | None => None end
               end) es es' with
      | Some l =>
          mk_list l (match r, r' with Some u, Some w => Some (unify u w) | _, _ => None end)
      | None => VBot
      end
  | VStruct fs rest, VStruct fs' rest' =>
      let left :=
        map (fun f : string * bool * val =>
          match field_of (fst (fst f)) fs' with
          | Some f' => (fst (fst f), snd (fst f) && fopt f', unify (snd f) (fval f'))
          | None =>
              (fst f, match rest' with Some w => unify (snd f) w | None => VBot end)
          end) fs in
      let right :=
        flat_map (fun f' : string * bool * val =>
          match field_of (flabel f') fs with
          | Some _ => []
          | None => [(fst f', match rest with Some u => unify u (fval f') | None => VBot end)]
          end) fs' in
      mk_struct (left ++ right)
        (match rest, rest' with Some u, Some w => Some (unify u w) | _, _ => None end)
  | VList _ _, _ | VStruct _ _, _ | _, VList _ _ | _, VStruct _ _ => VBot
  | _, _ => unify_scalar x y
  end.

(** [x.FillPath(l, v)]. *)
Definition fill (x : val) (l : string) (v : val) : val :=
  unify x (VStruct [(l, false, v)] (Some VTop)).

(** Data as a CUE value: what decoding JSON or YAML yields. Structs are open. *)
Fixpoint embed (d : data) : val :=
  match d with
  | DAtom a => VAtom a
  | DList l => VList (map embed l) None
  | DStruct l => VStruct (map (fun kx : string * data => (fst kx, false, embed (snd kx))) l) (Some VTop)
  end.
