(** C130: the document inside the generated code ([EmbedSpec.v]). *)
From Verif Require Import Prelude EmbedSpec EmbedSpecProofs.
Local Open Scope string_scope.
Local Open Scope list_scope.

(** The generated variable, as Go reads it, decodes to the document that was given,
    whatever that is, if unpacking undoes packing. *)
Theorem C130_same :
  forall zip unzip encoded, (forall s, unzip (zip s) = Some s) ->
    exists code, inlined (Ok encoded) zip = Ok code /\
      exists l, declares code "swaggerSpec" l /\ decodeSpec unzip l = Ok encoded.
Proof. exact embedded. Qed.
Print Assumptions C130_same.

(** It is written in pieces of 80 characters; only the last may be shorter, and
    none is empty. Together they are the whole text. *)
Theorem C130_pieces :
  forall s, String.concat "" (parts s) = s /\ (forall p, In p (parts s) -> 1 <= String.length p <= 80)%nat /\
    (forall a p b, parts s = a ++ p :: b -> b <> [] -> String.length p = 80%nat).
Proof. exact parts_sizes. Qed.
Print Assumptions C130_pieces.

(** The text is base 64 as RFC 4648 has it, and that decodes to what it was. *)
Theorem C130_base64 :
  forall s, base64 s (encodeToString s) /\ decodeString (encodeToString s) = Some s.
Proof. exact (fun s => conj (encode_base64 s) (decode_encode s)). Qed.
Print Assumptions C130_base64.

(** If there is no document, the reason is given. *)
Theorem C130_error :
  forall e zip, inlined (Err e) zip = Err (mkErr [] ("error marshaling swagger: " ++ e_text e)).
Proof. exact (fun e zip => eq_refl). Qed.
Print Assumptions C130_error.

Example C130_case :
  encodeToString "{""a"":1}" = "eyJhIjoxfQ==" /\ decodeString "eyJhIjoxfQ==" = Some "{""a"":1}" /\
  inlined (Ok "{""a"":1}") (fun s => s) = Ok ("// Base64 encoded, gzipped, json marshaled Swagger object
var swaggerSpec = []string{

    ""eyJhIjoxfQ=="",
}
") /\
  declares "var swaggerSpec = []string{ ""eyJhIjox"",
 ""fQ=="",}" "swaggerSpec" ["eyJhIjox"; "fQ=="] /\
  decodeSpec Some ["eyJhIjox"; "fQ=="] = Ok "{""a"":1}" /\ decodeSpec Some ["eyJhIjo"; "fQ=="] = Err (mkErr [] "error base64 decoding spec").
Proof. repeat split; try (vm_compute; reflexivity). exists "". eexists. split; vm_compute; reflexivity. Qed.
