(** Maps and lists on a command line (C123, C124). *)
From Verif Require Import Prelude Strings Util GenName GenConstProofs Utf8Proofs InputMap InputMapProofs.
Local Open Scope string_scope.
Local Open Scope list_scope.

(** *** C123 *)

(** A map with at least one entry comes back, whatever characters but quotes its
    keys and values hold, if those with commas or colons are in quotes; of two
    entries with the same key the last one stays. *)
Theorem C123_round_partial : forall kvs ts, kvs <> [] -> Forall2 entry_written kvs ts ->
  exists m, parseCommandlineMap (encode (joined 44 ts)) = Ok m /\ NoDup (map fst m) /\
    forall k v, In (k, v) m <-> last_writes (map (fun kv => (encode (fst kv), encode (snd kv))) kvs) k v.
Proof. exact map_round. Qed.
Print Assumptions C123_round_partial.

(** Any input in UTF-8: its entries are what stands between the commas that are
    not in quotes; each must have one colon that is not in quotes, and loses the
    quotes at the ends of its key and value; the error names the first that has
    none or several. *)
Theorem C123_exact : forall rs, Forall scalar rs -> exists ts, cuts 44 rs ts /\
  ((exists kvs ps m, Forall2 (fun t kv => cuts 58 t [fst kv; snd kv]) ts kvs /\
      Forall2 (fun kv p => stripped (encode (fst kv)) (fst p) /\ stripped (encode (snd kv)) (snd p)) kvs ps /\
      parseCommandlineMap (encode rs) = Ok m /\ NoDup (map fst m) /\
      forall k v, In (k, v) m <-> last_writes ps k v) \/
   (exists a t b qs, ts = a ++ t :: b /\ Forall (fun t => exists k v, cuts 58 t [k; v]) a /\
      cuts 58 t qs /\ length qs <> 2 /\
      parseCommandlineMap (encode rs) = Err (mkErr [] ("expected key:value, got :" ++ encode t)%string))).
Proof. exact map_exact. Qed.
Print Assumptions C123_exact.

(** No more than one way to cut a text. *)
Theorem C123_one_way : forall sep rs ps ps', sep <> 34%N -> cuts sep rs ps -> cuts sep rs ps' -> ps = ps'.
Proof. exact cuts_fun. Qed.
Print Assumptions C123_one_way.

(** Not every map can be given: not the empty one, and none with a quote at an
    end of a key or a value, in whatever way it is written. *)
Theorem C123_limits : forall src m, parseCommandlineMap src = Ok m ->
  m <> [] /\ Forall (fun kv => bare (fst kv) /\ bare (snd kv)) m.
Proof. exact map_limits. Qed.
Print Assumptions C123_limits.

(** So the claim that quotes let any map through fails. *)
Theorem C123_any_map_refuted : exists m : list (string * string), NoDup (map fst m) /\
  forall src, parseCommandlineMap src <> Ok m.
Proof. exact map_refuted. Qed.
Print Assumptions C123_any_map_refuted.

Theorem C123_quote_refuted : exists k v, forall src m, parseCommandlineMap src = Ok m -> ~ In (k, v) m.
Proof. exact quote_refuted. Qed.
Print Assumptions C123_quote_refuted.

Example C123_cases :
  parseCommandlineMap "a:b,""k,1"":""http://x"",a:c" = Ok [("a", "c"); ("k,1", "http://x")] /\
  parseCommandlineMap "" = Err (mkErr [] "expected key:value, got :") /\
  parseCommandlineMap "a:b,http://x:y" = Err (mkErr [] "expected key:value, got :http://x:y") /\
  entry_written (runes "k,1", runes "http:é") (runes """k,1"":""http:é""") /\
  cuts 44 (runes "a,""b,c"",d") [runes "a"; runes """b,c"""; runes "d"].
Proof.
  split; [vm_compute; reflexivity|]. split; [vm_compute; reflexivity|]. split; [vm_compute; reflexivity|]. split.
  - exact entry_case.
  - exact cuts_case.
Qed.

(** *** C124 *)

(** Words with any spaces around them come back. *)
Theorem C124_round : forall xs ps, xs <> [] ->
  Forall (fun x => x <> "" /\ ~ In ","%char (chars x)) xs -> Forall2 trimmed ps xs ->
  parseCommandLineList (commas ps) = xs.
Proof. exact list_round. Qed.
Print Assumptions C124_round.

(** Any input: what stands between its commas, without the spaces at the ends,
    in order, those left out of which nothing is left. *)
Theorem C124_exact : forall input, exists ps xs, ps <> [] /\ commas ps = input /\
  Forall (fun p => ~ In ","%char (chars p)) ps /\ Forall2 trimmed ps xs /\
  parseCommandLineList input = filter (fun x => negb (String.eqb x "")) xs.
Proof. exact list_exact. Qed.
Print Assumptions C124_exact.

Example C124_cases :
  parseCommandLineList " types , skip-prune,, client " = ["types"; "skip-prune"; "client"] /\
  parseCommandLineList " , " = [] /\ parseCommandLineList "  " = [] /\
  Forall2 trimmed [" types "; "a b"] ["types"; "a b"].
Proof.
  split; [vm_compute; reflexivity|]. split; [vm_compute; reflexivity|]. split; [vm_compute; reflexivity|].
  exact trimmed_case.
Qed.
