(** The document inside the generated code:
    [internal/deepmap/oapi-codegen/pkg/codegen/inline.go] and [templates/inline.tmpl]
    beside it. *)
From Verif Require Import Prelude.
Local Open Scope string_scope.
Local Open Scope list_scope.

(** *** [base64.StdEncoding] of Go's [encoding/base64]

    Bytes are characters. Three of them are written as four of six bits each. *)
Definition alphabet : string := "ABCDEFGHIJKLMNOPQRSTUVWXYZabcdefghijklmnopqrstuvwxyz0123456789+/".
Definition six : Type := bool * bool * bool * bool * bool * bool.
Definition num (x : six) : nat :=
  let '(a, b, c, d, e, f) := x in
  let n (y : bool) (k : nat) := if y then k else 0 in
  n a 32 + n b 16 + n c 8 + n d 4 + n e 2 + n f 1.
Definition digit (x : six) : ascii := match String.get (num x) alphabet with Some c => c | None => "=" end.

Definition first6 (a : ascii) : six := let 'Ascii a0 a1 a2 a3 a4 a5 a6 a7 := a in (a7, a6, a5, a4, a3, a2).
Definition second6 (a b : ascii) : six :=
  let 'Ascii a0 a1 _ _ _ _ _ _ := a in let 'Ascii _ _ _ _ b4 b5 b6 b7 := b in (a1, a0, b7, b6, b5, b4).
Definition third6 (b c : ascii) : six :=
  let 'Ascii b0 b1 b2 b3 _ _ _ _ := b in let 'Ascii _ _ _ _ _ _ c6 c7 := c in (b3, b2, b1, b0, c7, c6).
Definition fourth6 (c : ascii) : six := let 'Ascii c0 c1 c2 c3 c4 c5 _ _ := c in (c5, c4, c3, c2, c1, c0).

(** [EncodeToString]; what is missing of three bytes counts as zero, and is marked. *)
Fixpoint encodeToString (s : string) : string :=
  match s with
  | String a (String b (String c r)) =>
      String (digit (first6 a)) (String (digit (second6 a b)) (String (digit (third6 b c)) (String (digit (fourth6 c)) (encodeToString r))))
  | String a (String b EmptyString) =>
      String (digit (first6 a)) (String (digit (second6 a b)) (String (digit (third6 b zero)) "="))
  | String a EmptyString => String (digit (first6 a)) (String (digit (second6 a zero)) "==")
  | EmptyString => ""
  end.

(** The table that decodes: the place of a character in the alphabet. *)
Fixpoint place (c : ascii) (s : string) : option nat :=
  match s with
  | EmptyString => None
  | String d r => if Ascii.eqb c d then Some 0 else option_map S (place c r)
  end.
Definition bits (n : nat) : six :=
  let b k := Nat.odd (n / k) in (b 32, b 16, b 8, b 4, b 2, b 1).
Definition value (c : ascii) : option six := option_map bits (place c alphabet).

Definition byte1 (x y : six) : ascii := let '(a7, a6, a5, a4, a3, a2) := x in let '(a1, a0, _, _, _, _) := y in Ascii a0 a1 a2 a3 a4 a5 a6 a7.
Definition byte2 (y z : six) : ascii := let '(_, _, b7, b6, b5, b4) := y in let '(b3, b2, b1, b0, _, _) := z in Ascii b0 b1 b2 b3 b4 b5 b6 b7.
Definition byte3 (z w : six) : ascii := let '(_, _, _, _, c7, c6) := z in let '(c5, c4, c3, c2, c1, c0) := w in Ascii c0 c1 c2 c3 c4 c5 c6 c7.

(** [DecodeString] of text without ends of lines, which it would skip. Fewer than
    four characters, others than those of the alphabet, and anything after the marks
    are errors; bits that do not fill a byte are ignored. *)
Fixpoint decodeString (s : string) : option string :=
  match s with
  | EmptyString => Some ""
  | String c1 (String c2 (String c3 (String c4 r))) =>
      match value c1, value c2 with
      | Some x, Some y =>
          if Ascii.eqb c3 "=" then
            if Ascii.eqb c4 "=" && String.eqb r "" then Some (String (byte1 x y) "") else None
          else
            match value c3 with
            | Some z =>
                if Ascii.eqb c4 "=" then
                  if String.eqb r "" then Some (String (byte1 x y) (String (byte2 y z) "")) else None
                else
                  match value c4, decodeString r with
                  | Some w, Some t => Some (String (byte1 x y) (String (byte2 y z) (String (byte3 z w) t)))
                  | _, _ => None
                  end
            | None => None
            end
      | _, _ => None
      end
  | _ => None
  end.

(** *** [inline.go:29-77] *)

(** [inline.go:54-65]: pieces of [width] characters, and what is left if anything is.
    The loop ends as every piece takes characters; [fuel] is their number. *)
Definition width : nat := 80.
Fixpoint parts_loop (fuel : nat) (str : string) : list string :=
  match fuel with
  | O => []
  | S f =>
      if Nat.ltb width (String.length str)
      then substring 0 width str :: parts_loop f (substring width (String.length str - width) str)
      else if Nat.ltb 0 (String.length str) then [str] else []
  end.
Definition parts (str : string) : list string := parts_loop (S (String.length str)) str.

(** [inline.tmpl:1-5] *)
Definition nl : string := String "010" "".
Definition quote : string := String """" "".
Definition spec_text (ps : list string) : string :=
  ("// Base64 encoded, gzipped, json marshaled Swagger object" ++ nl ++ "var swaggerSpec = []string{" ++ nl ++
   String.concat "" (map (fun p => nl ++ "    " ++ quote ++ p ++ quote ++ ",") ps) ++ nl ++ "}" ++ nl)%string.

(** [GenerateInlinedSpec], up to the part of the template that has the document.
    [marshal] is [MarshalJSON] after [InternalizeRefs], and [zip] is [compress/gzip],
    which has no errors when it writes to memory. *)
Definition inlined (marshal : outcome string) (zip : string -> string) : outcome string :=
  match marshal with
  | Ok encoded => Ok (spec_text (parts (encodeToString (zip encoded))))
  | Err e => Err (mkErr [] ("error marshaling swagger: " ++ e_text e)%string)
  | Panic => Panic
  | OutOfFuel => OutOfFuel
  end.

(** [inline.tmpl:9-24], the generated function that reads the document back. The
    text of the errors is cut short. *)
Definition decodeSpec (unzip : string -> option string) (swaggerSpec : list string) : outcome string :=
  match decodeString (String.concat "" swaggerSpec) with
  | None => Err (mkErr [] "error base64 decoding spec")
  | Some zipped =>
      match unzip zipped with
      | None => Err (mkErr [] "error decompressing spec")
      | Some s => Ok s
      end
  end.
