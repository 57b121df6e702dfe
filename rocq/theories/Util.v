(** Labels and overlays ([internal/util/util.go]). *)
From Verif Require Import Prelude Strings.
Local Open Scope string_scope.
Local Open Scope list_scope.

(** *** Labels *)

Definition byte (a : ascii) : N := N_of_ascii a.
Definition in_range (lo hi : N) (a : ascii) : bool := (lo <=? byte a)%N && (byte a <=? hi)%N.

(** [utf8.DecodeRuneInString] of a non-empty string with first byte [a] and
    rest [r]: the rune and its width. An invalid encoding is the rune U+FFFD of
    width 1. A standard-library function. *)
Definition cont (lo hi : N) (r : string) : option (N * string) :=
  match r with
  | String b s => if in_range lo hi b then Some ((byte b - 128)%N, s) else None
  | EmptyString => None
  end.
Definition bad : N * nat := (65533%N, 1).
Definition decode2 (x : N) (r : string) : N * nat :=
  match cont 128 191 r with
  | Some (b1, _) => ((x * 64 + b1)%N, 2)
  | None => bad
  end.
Definition decode3 (lo hi x : N) (r : string) : N * nat :=
  match cont lo hi r with
  | Some (b1, r1) =>
      match cont 128 191 r1 with
      | Some (b2, _) => ((x * 4096 + b1 * 64 + b2)%N, 3)
      | None => bad
      end
  | None => bad
  end.
Definition decode4 (lo hi x : N) (r : string) : N * nat :=
  match cont lo hi r with
  | Some (b1, r1) =>
      match cont 128 191 r1 with
      | Some (b2, r2) =>
          match cont 128 191 r2 with
          | Some (b3, _) => ((x * 262144 + b1 * 4096 + b2 * 64 + b3)%N, 4)
          | None => bad
          end
      | None => bad
      end
  | None => bad
  end.
Definition decode_rune (a : ascii) (r : string) : N * nat :=
  let x := byte a in
  if (x <? 128)%N then (x, 1)
  else if in_range 194 223 a then decode2 (x - 192)%N r
  else if (x =? 224)%N then decode3 160 191 0 r
  else if (x =? 237)%N then decode3 128 159 13 r
  else if in_range 225 239 a then decode3 128 191 (x - 224)%N r
  else if (x =? 240)%N then decode4 144 191 0 r
  else if in_range 241 243 a then decode4 128 191 (x - 240)%N r
  else if (x =? 244)%N then decode4 128 143 4 r
  else bad.

(** [for _, r := range s]; [skip] counts the remaining bytes of the rune just
    decoded. *)
Fixpoint runes_from (skip : nat) (s : string) : list N :=
  match s with
  | EmptyString => []
  | String a r =>
      match skip with
      | S k => runes_from k r
      | O => let '(x, w) := decode_rune a r in x :: runes_from (w - 1) r
      end
  end.
Definition runes (s : string) : list N := runes_from 0 s.

(** [utf8.EncodeRune] for ASCII, the only runes the mapping below keeps. *)
Definition encode_ascii (x : N) : ascii := ascii_of_N x.

(** [util.go:85-97]: the rune is kept, [-1] drops it. *)
Definition label_rune (r : N) : option N :=
  if (97 <=? r)%N && (r <=? 122)%N then Some r
  else if (65 <=? r)%N && (r <=? 90)%N then Some r
  else if (48 <=? r)%N && (r <=? 57)%N then Some r
  else if (r =? 95)%N then Some r
  else None.

(** [util.go:83-98] [SanitizeLabelString] ([strings.Map]). *)
Definition sanitizeLabelString (s : string) : string :=
  fold_right (fun r acc => match label_rune r with
                           | Some x => String (encode_ascii x) acc
                           | None => acc
                           end) "" (runes s).

(** *** Overlays *)

(** An [fs.FS] as a tree; [None] where opening, reading or listing fails. Any
    entry that is not a directory is a file here. The names of a directory are
    those [fs.ReadDir] returns, in its order. *)
Inductive fsnode :=
| FFile (content : option string)
| FDir (entries : option (list (string * fsnode))).

(** [filepath.Clean] of a rooted Unix path as its components. A
    standard-library function. *)
Definition clean_step (acc : list string) (c : string) : list string :=
  if String.eqb c "" || String.eqb c "." then acc
  else if String.eqb c ".." then removelast acc
  else acc ++ [c].
Definition clean_abs (p : string) : list string := fold_left clean_step (split_str p "/") [].

(** [filepath.IsAbs] on Unix. *)
Definition is_abs (p : string) : bool := has_prefix p "/".

(** [map[string]load.Source]; keys are rooted clean paths, represented by their
    components; later assignments come first. *)
Definition overlay := list (list string * string).
Definition path_eqb (a b : list string) : bool := if list_eq_dec string_dec a b then true else false.
Fixpoint ov_lookup (m : overlay) (k : list string) : option string :=
  match m with
  | [] => None
  | (k', c) :: r => if path_eqb k k' then Some c else ov_lookup r k
  end.

Definition io_err : err := new_err "io".

(** [fs.WalkDir] with the callback of [util.go:20-43], from the node at [path]
    below the root. [None] as overlay is the nil map. The result is the overlay
    and the error returned; the overlay keeps what was assigned before an
    error. *)
Fixpoint walk (base path : list string) (n : fsnode) (ov : option overlay)
  : outcome (option overlay * option err) :=
  match n with
  | FFile None => Ok (ov, Some io_err)
  | FFile (Some c) =>
      match ov with
      | None => Panic
      | Some m => Ok (Some ((base ++ path, c) :: m), None)
      end
  | FDir None => Ok (ov, Some io_err)
  | FDir (Some es) =>
      (fix go (l : list (string * fsnode)) (ov : option overlay)
         : outcome (option overlay * option err) :=
         match l with
         | [] => Ok (ov, None)
         | (name, d) :: r =>
             x <- walk base (path ++ [name]) d ov ;;
             match snd x with
             | Some e => Ok x
             | None => go r (fst x)
             end
         end) es ov
  end.

(** [util.go:15-49] [ToOverlay]. *)
Definition toOverlay (prefix : string) (vfs : fsnode) (ov : option overlay)
  : outcome (option overlay * option err) :=
  if negb (is_abs prefix) then
    Ok (ov, Some (new_err "must provide absolute path prefix when generating cue overlay"))
  else walk (clean_abs prefix) [] vfs ov.
