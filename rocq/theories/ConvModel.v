(* Model of package convert (convert/convert.go) and of the command cmd/fmtconvert/main.go. *)

From Verif Require Import Base CtyModel HclModel JsonModel.

Section Convert.
(* yaml.v3 (library): Marshal, and Unmarshal into a *map[string]interface{} that holds an
   empty map. *)
Variable yaml_marshal : native -> result string.
Variable yaml_unmarshal : string -> result native.

(* dethcl.Marshal gives nil for nil data; as text that is the empty string. *)
Definition hcl_marshal (v : native) : result string := do b <- marshal v; Ok (bytes b).
(* dethcl.Unmarshal into a pointer to an empty map, dethcl/unmarshal.go:26-78: the entries of
   decodeMap's result are copied. *)
Definition hcl_unmarshal (s : string) : result native := decode_map s.

(* JSONToYAML, convert.go:11-17 *)
Definition json_to_yaml (raw : string) : result string := do obj <- json_unmarshal raw; yaml_marshal obj.
(* YAMLToJSON, convert.go:20-27 *)
Definition yaml_to_json (raw : string) : result string := do obj <- yaml_unmarshal raw; json_marshal obj.
(* JSONToHCL, convert.go:30-36 *)
Definition json_to_hcl (raw : string) : result string := do obj <- json_unmarshal raw; hcl_marshal obj.
(* HCLToJSON, convert.go:39-45 *)
Definition hcl_to_json (raw : string) : result string := do obj <- hcl_unmarshal raw; json_marshal obj.
(* YAMLToHCL, convert.go:48-55 *)
Definition yaml_to_hcl (raw : string) : result string := do obj <- yaml_unmarshal raw; hcl_marshal obj.
(* HCLToYAML, convert.go:58-64 *)
Definition hcl_to_yaml (raw : string) : result string := do obj <- hcl_unmarshal raw; yaml_marshal obj.

(* ----- the command ----- *)

(* os.Args[0], the text of flag.PrintDefaults, and os.ReadFile *)
Variable prog defaults : string.
Variable read_file : string -> result string.

Record outcome := mkOut { code : nat; stdout : string; stderr : string }.

(* flag.Parse on the two string flags of main.go:13-17 (library), with the default policy of
   leaving the program with status 2 after an error and with status 0 after a request for help.
   The result is the two flags and the arguments left, or the end of the program. *)
Fixpoint cut_eq (s : string) : string * option string :=
  match s with
  | "" => ("", None)
  | String c s' => if Ascii.eqb c "=" then ("", Some s')
                   else let p := cut_eq s' in (String c (fst p), snd p)
  end.
Inductive parsed := Args (from to : string) (rest : list string) | Leave (o : outcome).
Definition flag_usage : string := "Usage of " +++ prog +++ ":" +++ nl +++ defaults.
Definition bad_flag (e : string) : parsed := Leave (mkOut 2 "" (e +++ nl +++ flag_usage)).
Definition set_flag (name value from to : string) : string * string :=
  if String.eqb name "from" then (value, to) else (from, value).
Definition known_flag (name : string) : bool := String.eqb name "from" || String.eqb name "to".

Fixpoint parse_flags (args : list string) (from to : string) {struct args} : parsed :=
  match args with
  | [] => Args from to []
  | s :: rest =>
    match s with
    | String "-" (String c s') =>
      if Ascii.eqb c "-" && String.eqb s' "" then Args from to rest
      else
        let name := if Ascii.eqb c "-" then s' else String c s' in
        match name with
        | "" => Args from to args
        | String d _ =>
          if Ascii.eqb d "-" || Ascii.eqb d "=" then bad_flag ("bad flag syntax: " +++ s)
          else
            let p := cut_eq name in
            if negb (known_flag (fst p)) then
              if String.eqb (fst p) "help" || String.eqb (fst p) "h" then Leave (mkOut 0 "" flag_usage)
              else bad_flag ("flag provided but not defined: -" +++ fst p)
            else
              match snd p, rest with
              | Some v, _ => let q := set_flag (fst p) v from to in parse_flags rest (fst q) (snd q)
              | None, v :: rest' => let q := set_flag (fst p) v from to in parse_flags rest' (fst q) (snd q)
              | None, [] => bad_flag ("flag needs an argument: -" +++ fst p)
              end
        end
    | _ => Args from to args
    end
  end.

(* os.Exit(-1): the status is 255 *)
Definition fail (msg : string) : outcome := mkOut 255 "" msg.

(* main, main.go:25-86; usage is main.go:19-23 *)
Definition main (args : list string) : outcome :=
  match parse_flags args "json" "hcl" with
  | Leave o => o
  | Args from to rest =>
    if String.eqb from to then fail ("error: from and to format are the same" +++ nl)          (* 26-29 *)
    else
      let filename := match rest with f :: _ => f | [] => "" end in                         (* 31 *)
      if String.eqb filename "" then fail ("usage: " +++ prog +++ " [options] <filename>" +++ nl +++ defaults)
      else
        match read_file filename with                                                       (* 36-40 *)
        | Err e => fail ("error: " +++ e +++ nl)
        | Panic e => mkOut 2 "" e
        | Ok raw =>
          let bad_to := inl (fail ("error: unsupported to format " +++ to +++ nl)) in
          let r : outcome + result string :=                                                (* 42-76 *)
            if String.eqb from "json" then
              if String.eqb to "yaml" then inr (json_to_yaml raw)
              else if String.eqb to "hcl" then inr (json_to_hcl raw)
              else bad_to
            else if String.eqb from "yaml" then
              if String.eqb to "json" then inr (yaml_to_json raw)
              else if String.eqb to "hcl" then inr (yaml_to_hcl raw)
              else bad_to
            else if String.eqb from "hcl" then
              if String.eqb to "json" then inr (hcl_to_json raw)
              else if String.eqb to "yaml" then inr (hcl_to_yaml raw)
              else bad_to
            else inl (fail ("error: unsupported from format " +++ from +++ nl)) in
          match r with
          | inl o => o
          | inr (Ok out) => mkOut 0 (out +++ nl) ""                                          (* 83-84 *)
          | inr (Err e) => fail ("error: " +++ e +++ nl)                                     (* 78-81 *)
          | inr (Panic e) => mkOut 2 "" e
          end
        end
  end.
End Convert.
