(** Syntactic versions: order, printing, parsing. *)
From Verif Require Import Prelude.
Local Open Scope N_scope.

(** [surface.go:333] [type SyntacticVersion [2]uint]. Components are [N];
    every component of a Go value is below 2^64. *)
Definition version : Type := N * N.

(** [surface.go:341-343] [SV]; [synv()] without arguments is [0.0]. *)
Definition SV (a b : N) : version := (a, b).
Definition synv0 : version := SV 0 0.

(** [surface.go:347-349] [Less]. *)
Definition vless (a b : version) : bool :=
  (fst a <? fst b) || ((fst a =? fst b) && (snd a <? snd b)).

(** Go [==] on arrays. *)
Definition veqb (a b : version) : bool :=
  (fst a =? fst b) && (snd a =? snd b).

(** [lineage.cue:284-295] [_cmpSV]. [out] is the unification of the
    embeddings whose guards hold; with no guard holding it would be the
    unresolved disjunction, with two different values it would be bottom: both
    are [None]. *)
Definition cmpSV (l r : version) : option Z :=
  let guards :=
    [ (fst l <? fst r, (-1)%Z);
      (fst r <? fst l, 1%Z);
      ((fst l =? fst r) && (snd l <? snd r), (-1)%Z);
      ((fst l =? fst r) && (snd r <? snd l), 1%Z);
      (veqb l r, 0%Z) ] in
  match List.map snd (List.filter fst guards) with
  | [] => None
  | z :: zs => if forallb (Z.eqb z) zs then Some z else None
  end.

(** Decimal digits of [n], most significant first, in front of [acc]: Go's
    [%v] of an unsigned integer. [fuel] bounds the number of digits and is
    chosen sufficient by [show_N]. *)
Definition digit (d : N) : ascii := ascii_of_N (48 + d).

Fixpoint show_aux (fuel : nat) (n : N) (acc : string) : string :=
  match fuel with
  | O => acc
  | S f =>
      let acc' := String (digit (n mod 10)) acc in
      if n <? 10 then acc' else show_aux f (n / 10) acc'
  end.

Definition show_N (n : N) : string := show_aux (S (N.size_nat n)) n EmptyString.

(** [surface.go:351-353] [SyntacticVersion.String]. *)
Definition vstring (v : version) : string :=
  (show_N (fst v) ++ "." ++ show_N (snd v))%string.

(** [strings.Split(s, sep)] for a one-byte separator. *)
Fixpoint split_on (c : ascii) (s : string) : list string :=
  match s with
  | EmptyString => [EmptyString]
  | String x r =>
      if Ascii.eqb x c then EmptyString :: split_on c r
      else match split_on c r with
           | [] => [String x EmptyString] (* not reachable *)
           | p :: ps => String x p :: ps
           end
  end.

(** [strconv.ParseUint(s, 10, 32)]: the value, or [None] for any of its
    errors (empty, bad character, out of range). Go standard library, not /repo;
    the loop is transcribed from strconv/atoi.go. *)
Definition cutoff64 : N := 18446744073709551615 / 10 + 1.
Definition max32 : N := 4294967295.

Definition digit_val (c : ascii) : option N :=
  let n := N_of_ascii c in
  if (48 <=? n) && (n <=? 57) then Some (n - 48) else None.

Fixpoint parse_loop (s : string) (n : N) : option N :=
  match s with
  | EmptyString => Some n
  | String c r =>
      match digit_val c with
      | None => None
      | Some d =>
          if cutoff64 <=? n then None
          else let n1 := n * 10 + d in
               if max32 <? n1 then None else parse_loop r n1
      end
  end.

Definition parse_uint32 (s : string) : option N :=
  match s with
  | EmptyString => None
  | _ => parse_loop s 0
  end.

Definition malformed : err := mkErr [ErrMalformedSyntacticVersion] "".

(** [surface.go:357-375] [ParseSyntacticVersion]: the returned version and
    the returned error ([None] = nil). *)
Definition parse_version (s : string) : version * option err :=
  match split_on "."%char s with
  | [p0; p1] =>
      match parse_uint32 p0 with
      | None => (synv0, Some malformed)
      | Some seqv =>
          match parse_uint32 p1 with
          | None => (synv0, Some malformed)
          | Some schv => ((seqv, schv), None)
          end
      end
  | _ => (synv0, Some malformed)
  end.

(** [strings.Join]. *)
Fixpoint join (sep : string) (l : list string) : string :=
  match l with
  | [] => EmptyString
  | [x] => x
  | x :: r => (x ++ sep ++ join sep r)%string
  end.

(** [surface.go:379-385] [versionList.String]. *)
Definition versions_string (vl : list version) : string :=
  join ", " (List.map vstring vl).
