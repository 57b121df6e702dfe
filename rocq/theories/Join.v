(** The joinSchema of a lineage and the definition it makes of each schema: the CUE
    code of [lineage.cue], on the fragment of CueFrag.v. *)
From Verif Require Import Prelude Version CueFrag CueEval.
Local Open Scope string_scope.
Local Open Scope list_scope.

(** [lineage.cue:226-234]: [_#schema] is a definition, so CUE closes the structs in
    it, recursively. What is written as a plain struct literal is open elsewhere
    ([Some VTop]); in a definition it allows no field but its own. A struct with a
    pattern [[string]: T] goes on allowing the fields of that pattern. Simplified: a
    struct written with an ellipsis, [{a: int, ...}], which a definition leaves open,
    is not in the fragment. *)
Fixpoint close (v : val) : val :=
  match v with
  | VOr ds => VOr (map (fun d : bool * val => (fst d, close (snd d))) ds)
  | VList es r => VList (map close es) (match r with Some u => Some (close u) | None => None end)
  | VStruct fs rest =>
      VStruct (map (fun f : string * bool * val => (fst f, close (snd f))) fs)
              (match rest with
               | Some VTop | None => None
               | Some u => Some (close u)
               end)
  | _ => v
  end.

(** [lineage.cue:31], [45-47], [221]: every element of [schemas] has the joinSchema as
    its [_join] if that is not bottom; else [_join] is top. *)
Definition join_of (j : val) : val := if is_bot j then VTop else j.

(** [lineage.cue:234] [_#schema: _join & schema]. *)
Definition schema_handle (j body : val) : val := close (unify (join_of j) body).

(** [lineage.cue:43], [45-47]: a lineage with joinSchema [j] whose schemas have the
    versions and bodies [ss]. *)
Definition join_lineage (name : string) (j : val) (ss : list ((option N * option N) * val))
    (ls : list ((option version * option version) * ((val -> val) * (val -> list N)))) : cval :=
  CLin name (map (fun s => (fst s, (schema_handle j (snd s), snd s))) ss) ls.
