(* What the format conversions should preserve. *)

From Verif Require Import Base CtyModel CtySpec HclModel HclSpec HclGrammar.

Definition ascii_string (s : string) : Prop := all_chars (char_in 0 127) s = true.

(* Data that JSON can hold without loss: ASCII strings, numbers of at most 53 bits, no nil or
   empty lists, no nil maps. *)
Inductive exact : native -> Prop :=
| ex_nil : exact NNil
| ex_str s : ascii_string s -> exact (NStr s)
| ex_bool b : exact (NBool b)
| ex_int z : (Z.abs z <= 2 ^ 53)%Z -> exact (NInt z)
| ex_int64 z : (Z.abs z <= 2 ^ 53)%Z -> exact (NInt64 z)
| ex_map m : NoDup (keys m) -> (forall k v, In (k, v) m -> ascii_string k /\ exact v) -> exact (NMap m)
| ex_list l : l <> [] -> (forall v, In v l -> exact v) -> exact (NList l).

(* w is the generic value that encoding/json reads for the data v: numbers are floats, nil maps
   and slices are null, and maps are compared as maps. *)
Inductive json_view : native -> native -> Prop :=
| jv_nil : json_view NNil NNil
| jv_nilmap : json_view NNilMap NNil
| jv_nillist : json_view NNilList NNil
| jv_str s : json_view (NStr s) (NStr s)
| jv_bool b : json_view (NBool b) (NBool b)
| jv_int z d : representable float64 d -> nearest float64 d (mkD z 0) -> json_view (NInt z) (NF64 d)
| jv_int64 z d : representable float64 d -> nearest float64 d (mkD z 0) -> json_view (NInt64 z) (NF64 d)
| jv_f64 d d' : same_num d d' -> json_view (NF64 d) (NF64 d')
| jv_f32 d d' : same_num d d' -> json_view (NF32 d) (NF64 d')
| jv_list l l' : Forall2 json_view l l' -> json_view (NList l) (NList l')
| jv_map m m' : NoDup (keys m) -> NoDup (keys m') ->
    (forall k, lookup k m = None <-> lookup k m' = None) ->
    (forall k v v', lookup k m = Some v -> lookup k m' = Some v' -> json_view v v') ->
    json_view (NMap m) (NMap m').

(* Data that the model of json.Marshal writes: the same, with any integers and floats of whole
   numbers of at most 53 bits (float32: 24), nil maps and empty or nil lists. *)
Inductive writable : native -> Prop :=
| wr_nil : writable NNil
| wr_nilmap : writable NNilMap
| wr_nillist : writable NNilList
| wr_str s : ascii_string s -> writable (NStr s)
| wr_bool b : writable (NBool b)
| wr_int z : in_int64 z -> writable (NInt z)
| wr_int64 z : in_int64 z -> writable (NInt64 z)
| wr_f64 d z : is_whole d z -> (Z.abs z <= 2 ^ 53)%Z -> writable (NF64 d)
| wr_f32 d z : is_whole d z -> (Z.abs z <= 2 ^ 24)%Z -> writable (NF32 d)
| wr_map m : NoDup (keys m) -> (forall k v, In (k, v) m -> ascii_string k /\ writable v) -> writable (NMap m)
| wr_list l : (forall v, In v l -> writable v) -> writable (NList l).

(* w is what comes back through YAML for JSON data v: whole numbers may have become
   integers; maps are compared as maps. *)
Inductive yaml_view : native -> native -> Prop :=
| yv_nil : yaml_view NNil NNil
| yv_str s : yaml_view (NStr s) (NStr s)
| yv_bool b : yaml_view (NBool b) (NBool b)
| yv_int d z : is_whole d z -> yaml_view (NF64 d) (NInt z)
| yv_f64 d d' : same_num d d' -> yaml_view (NF64 d) (NF64 d')
| yv_list l l' : Forall2 yaml_view l l' -> yaml_view (NList l) (NList l')
| yv_map m m' : NoDup (keys m) -> NoDup (keys m') ->
    (forall k, lookup k m = None <-> lookup k m' = None) ->
    (forall k v v', lookup k m = Some v -> lookup k m' = Some v' -> yaml_view v v') ->
    yaml_view (NMap m) (NMap m').

(* ----- JSON texts ----- *)

(* The data a JSON text says, for texts of ASCII characters whose numbers are integers within
   the range of float64 (up to half a step above the largest).  Blanks may stand around every
   token. *)
Definition blank (s : string) : Prop :=
  forall i c, String.get i s = Some c -> In c [" "; "009"; "010"; "013"]%char.
Definition hex_is (c : ascii) (n : nat) : Prop :=
  String.get n "0123456789abcdef" = Some c \/ String.get n "0123456789ABCDEF" = Some c.
Definition short_escapes : list (ascii * ascii) :=
  [("""", """"); ("\", "\"); ("/", "/"); ("b", "008"); ("f", "012"); ("n", "010"); ("r", "013"); ("t", "009")]%char.
Inductive char_text : string -> ascii -> Prop :=
| ct_plain c : 32 <= nat_of_ascii c < 128 -> c <> """"%char -> c <> "\"%char -> char_text (String c "") c
| ct_short e c : In (e, c) short_escapes -> char_text (String "\" (String e "")) c
| ct_hex a b x y c : hex_is a x -> hex_is b y -> nat_of_ascii c = x * 16 + y -> nat_of_ascii c < 128 ->
    char_text ("\u00" +++ String a (String b "")) c.
Inductive chars_text : string -> string -> Prop :=
| cs_none : chars_text "" ""
| cs_more t c r s : char_text t c -> chars_text r s -> chars_text (t +++ r) (String c s).
Definition string_text (t s : string) : Prop := exists b, t = quote +++ b +++ quote /\ chars_text b s.
Definition whole_text (t : string) (z : Z) : Prop := t <> "" /\ digits 0 t z /\ forall r, t = String "0" r -> r = "".
Definition number_text (t : string) (z : Z) : Prop := whole_text t z \/ exists u y, t = "-" +++ u /\ whole_text u y /\ z = (- y)%Z.
Definition in_float64 (z : Z) : Prop := (Z.abs z < 2 ^ 1024 - 2 ^ 970)%Z.
Inductive json_text : string -> native -> Prop :=
| jt_null : json_text "null" NNil
| jt_true : json_text "true" (NBool true)
| jt_false : json_text "false" (NBool false)
| jt_str t s : string_text t s -> json_text t (NStr s)
| jt_int t z : number_text t z -> in_float64 z -> json_text t (NInt z)
| jt_no_list b : blank b -> json_text ("[" +++ b +++ "]") (NList [])
| jt_list t l : elems_text t l -> json_text ("[" +++ t +++ "]") (NList l)
| jt_no_map b : blank b -> json_text ("{" +++ b +++ "}") (NMap [])
(* the last member with a name counts *)
| jt_map t l m : members_text t l -> NoDup (keys m) -> (forall k, lookup k m = lookup k (rev l)) ->
    json_text ("{" +++ t +++ "}") (NMap m)
with elems_text : string -> list native -> Prop :=
| et_one b t v b' : blank b -> json_text t v -> blank b' -> elems_text (b +++ t +++ b') [v]
| et_more b t v b' r l : blank b -> json_text t v -> blank b' -> elems_text r l ->
    elems_text (b +++ t +++ b' +++ "," +++ r) (v :: l)
with members_text : string -> list (string * native) -> Prop :=
| mt_one t k v : member_text t k v -> members_text t [(k, v)]
| mt_more t k v r l : member_text t k v -> members_text r l -> members_text (t +++ "," +++ r) ((k, v) :: l)
with member_text : string -> string -> native -> Prop :=
| me b q k b1 b2 t v b3 : blank b -> string_text q k -> blank b1 -> blank b2 -> json_text t v -> blank b3 ->
    member_text (b +++ q +++ b1 +++ ":" +++ b2 +++ t +++ b3) k v.
Definition json_document (s : string) (m : list (string * native)) : Prop :=
  exists b t b', s = b +++ t +++ b' /\ blank b /\ json_text t (NMap m) /\ blank b'.

(* ----- the command ----- *)

(* The flags of the command line: -flag=value, --flag=value, -flag value or --flag value, up to
   the first argument that is not a flag or to "--"; the last setting of a flag counts. *)
Definition a_flag (name : string) : Prop := name = "from" \/ name = "to".
Definition not_flag (s : string) : Prop := s = "" \/ s = "-" \/ exists c s', s = String c s' /\ c <> "-"%char.
Definition put (name value from to : string) : string * string :=
  if string_dec name "from" then (value, to) else (from, value).
Inductive flags : list string -> string -> string -> string -> string -> list string -> Prop :=
| fl_none f t : flags [] f t f t []
| fl_stop s rest f t : not_flag s -> flags (s :: rest) f t f t (s :: rest)
| fl_end rest f t : flags ("--" :: rest) f t f t rest
| fl_eq dash name v args f t f' t' rest : dash = "-" \/ dash = "--" -> a_flag name ->
    flags args (fst (put name v f t)) (snd (put name v f t)) f' t' rest ->
    flags ((dash +++ name +++ "=" +++ v) :: args) f t f' t' rest
| fl_next dash name v args f t f' t' rest : dash = "-" \/ dash = "--" -> a_flag name ->
    flags args (fst (put name v f t)) (snd (put name v f t)) f' t' rest ->
    flags ((dash +++ name) :: v :: args) f t f' t' rest.

(* An argument that asks for help. *)
Definition asks_help (s : string) : Prop :=
  exists dash name, (dash = "-" \/ dash = "--") /\ (name = "h" \/ name = "help")
    /\ (s = dash +++ name \/ exists v, s = dash +++ name +++ "=" +++ v).
