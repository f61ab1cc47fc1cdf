(* Model of det/collect.go: discovery of struct types. *)

From Verif Require Import Base GoType.

(* strings.Split(pkgPath, "/") followed by parts[len(parts)-1] (det/collect.go:68-69):
   the part after the last slash. *)
Fixpoint last_part (s : string) : string :=
  match s with
  | "" => ""
  | String c r => if (existsb (fun d => Ascii.eqb d "/") (list_ascii_of_string r)) then last_part r
                  else if Ascii.eqb c "/" then r else s
  end.

Section Collect.
Variable E : env.
(* implementations: interface name -> types of the listed instances; None for a nil
   instance, for which reflect.TypeOf returns nil (det/collect.go:25-27,36-37). *)
Variable impls : list (string * list (option gtype)).

(* Type.Name() *)
Definition type_name (t : gtype) : string :=
  match t with TNamed n => match nth_error E n with Some d => n_name d | None => "" end | _ => "" end.

Fixpoint over (f : gtype -> list (string * tid) -> option (list (string * tid)))
    (ts : list gtype) (ref : list (string * tid)) : option (list (string * tid)) :=
  match ts with
  | [] => Some ref
  | t :: ts' => match f t ref with Some ref' => over f ts' ref' | None => None end
  end.

Fixpoint somes {A} (l : list (option A)) : list A :=
  match l with [] => [] | Some a :: l' => a :: somes l' | None :: l' => somes l' end.

(* collectStructTypes, det/collect.go:24-76.  The value stored for a key is a fresh
   pointer to the struct type, here the type itself.  Nil types of implementations do
   nothing (lines 24-26) and are dropped by somes.  Fuel bounds the depth of the Go call
   stack: None means that the given depth does not suffice. *)
Fixpoint collect (fuel : nat) (t0 : gtype) (ref : list (string * tid)) : option (list (string * tid)) :=
  match fuel with
  | O => None
  | S fuel' =>
    (* lines 28-30: one pointer is followed *)
    let t := match under E t0 with TPtr e => e | _ => t0 end in
    match under E t with
    | TIface _ =>                                                       (* lines 33-40 *)
      match lookup (type_name t) impls with
      | Some l => over (collect fuel') (somes l) ref
      | None => Some ref
      end
    | TMap _ e => collect fuel' e ref                                   (* lines 43-46 *)
    | TSlice e => collect fuel' e ref                                   (* lines 49-52 *)
    | TStruct fs =>                                                     (* lines 59-74 *)
      match t with
      | TNamed n =>
        match nth_error E n with
        | Some d =>
          let name := n_name d in
          if (if string_dec name "" then true
              else match lookup name ref with Some _ => true | None => false end)
          then Some ref
          else
            let ref1 := insert name n ref in
            let ref2 := if string_dec (n_pkg d) "" then ref1
                        else insert (last_part (n_pkg d) +++ "." +++ name) n ref1 in
            over (collect fuel') (map ftype fs) ref2
        | None => Some ref
        end
      | _ => Some ref                                                   (* unnamed: name == "" *)
      end
    | _ => Some ref                                                     (* lines 54-56 *)
    end
  end.

(* collectStructTypesFromObject, det/collect.go:15-19; None for a nil object. *)
Definition collect_from (fuel : nat) (obj : option gtype) : option (list (string * tid)) :=
  match obj with None => Some [] | Some t => collect fuel t [] end.

End Collect.
