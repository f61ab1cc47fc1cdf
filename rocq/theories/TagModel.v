(* Model of tag2 and hcltag, dethcl/util.go:25-42: the hcl entry of a struct tag.

   Simplification: white space and case are those of ASCII; Unicode spaces are ordinary
   characters. *)

From Verif Require Import Base CtyModel HclModel.

(* strings.Fields *)
Definition flush (cur : string) (l : list string) : list string :=
  match cur with "" => l | _ => cur :: l end.
Fixpoint fields_from (cur s : string) : list string :=
  match s with
  | "" => flush cur []
  | String c s' => if space_char c then flush cur (fields_from "" s')
                   else fields_from (cur +++ str1 c) s'
  end.
Definition fields (s : string) : list string := fields_from "" s.

(* strings.ToLower *)
Definition lower_char (c : ascii) : ascii :=
  if char_in 65 90 c then ascii_of_nat (nat_of_ascii c + 32) else c.
Fixpoint to_lower (s : string) : string :=
  match s with "" => "" | String c s' => String (lower_char c) (to_lower s') end.

(* The condition at util.go:27, with tag[:5] written out, and the text after it. *)
Definition hcl_rest (f : string) : option string :=
  match f with
  | String a (String b (String c (String d (String e r)))) =>
    if String.eqb (to_lower (String a (String b (String c (String d (String e "")))))) ("hcl:" +++ quote)
    then Some r else None
  | _ => None
  end.

(* tag[5 : len(tag)-1], util.go:28: one byte less, which panics if there is none. *)
Fixpoint but_last (s : string) : string :=
  match s with "" => "" | String _ "" => "" | String c s' => String c (but_last s') end.
Definition drop_last (s : string) : result string :=
  match s with "" => Panic "slice bounds out of range [5:4]" | _ => Ok (but_last s) end.

(* strings.SplitN(tag, ",", 2), util.go:29-33 *)
Fixpoint split_comma (acc s : string) : string * string :=
  match s with
  | "" => (acc, "")
  | String c s' => if Ascii.eqb c "," then (acc, s') else split_comma (acc +++ str1 c) s'
  end.

Fixpoint first_hcl (l : list string) : option string :=
  match l with
  | [] => None
  | f :: l' => match hcl_rest f with Some r => Some r | None => first_hcl l' end
  end.

(* tag2, util.go:25-37 *)
Definition tag2 (tag : string) : result (string * string) :=
  match first_hcl (fields tag) with
  | Some r => do t <- drop_last r; Ok (split_comma "" t)
  | None => Ok ("", "")
  end.

(* hcltag, util.go:39-42 *)
Definition hcltag (tag : string) : result string := do two <- tag2 tag; Ok (fst two).
