(* HCL text, written down as a grammar: which texts are which tokens, and which tokens are
   which bodies.  The grammar covers what HclModel.v models of the syntax; operators,
   templates and heredocs are left out. *)

From Verif Require Import Base CtyModel HclModel.

(* ----- tokens ----- *)

Definition letters : string := "abcdefghijklmnopqrstuvwxyzABCDEFGHIJKLMNOPQRSTUVWXYZ_".
Definition one_of (c : ascii) (s : string) : Prop := exists i, String.get i s = Some c.
Definition only (p : ascii -> Prop) (s : string) : Prop := forall i c, String.get i s = Some c -> p c.

Definition word_start (c : ascii) : Prop := one_of c letters.
Definition word_char (c : ascii) : Prop := one_of c letters \/ one_of c "0123456789-".
Definition word (s : string) : Prop := exists c r, s = String c r /\ word_start c /\ only word_char r.

Definition digit (c : ascii) (d : Z) : Prop := exists i, String.get i "0123456789" = Some c /\ d = Z.of_nat i.
(* the number with the digits of z and then those of the text *)
Inductive digits : Z -> string -> Z -> Prop :=
| dg_none z : digits z "" z
| dg_more z c d t z' : digit c d -> digits (z * 10 + d) t z' -> digits z (String c t) z'.

Definition marker (c : ascii) : Prop := c = "$"%char \/ c = "%"%char.
Definition escapes : list (ascii * ascii) := [("n", "010"); ("t", "009"); ("r", "013"); ("""", """"); ("\", "\")]%char.
(* The text between quotes and the string it stands for. *)
Inductive quoted : string -> string -> Prop :=
| qt_none : quoted "" ""
| qt_plain c t s : (32 <= nat_of_ascii c <= 126)%nat -> c <> """"%char -> c <> "\"%char -> ~ marker c ->
    quoted t s -> quoted (String c t) (String c s)
| qt_escape e c t s : In (e, c) escapes -> quoted t s -> quoted (String "\" (String e t)) (String c s)
| qt_mark c t s : marker c -> (forall d r, t = String d r -> d <> "{"%char /\ ~ marker d) ->
    quoted t s -> quoted (String c t) (String c s).

Definition symbols : list (token * string) :=
  [(TLBrace, "{"); (TRBrace, "}"); (TLBrack, "["); (TRBrack, "]"); (TLParen, "("); (TRParen, ")");
   (TEq, "="); (TColon, ":"); (TComma, ","); (TMinus, "-"); (TNl, nl)].
(* A comment up to the end of the line. *)
Definition line_comment (t : string) : Prop :=
  exists o c, (o = "#" \/ o = "//") /\ t = o +++ c /\ only (fun d => d <> "010"%char) c.
(* The part of a literal behind its point, and the digits of it. *)
Definition fraction (f k : string) : Prop := (f = "" /\ k = "") \/ (f = "." +++ k /\ k <> "").
Definition exponent_sign (g : string) (i : Z) : Prop := (g = "" /\ i = 1%Z) \/ (g = "+" /\ i = 1%Z) \/ (g = "-" /\ i = (-1)%Z).
(* m times ten to the e is n by ten to the j; j is zero unless e is negative *)
Definition power_of_ten (m e n : Z) (j : nat) : Prop :=
  ((0 <= e)%Z /\ n = (m * 10 ^ e)%Z /\ j = 0%nat) \/ ((e < 0)%Z /\ n = m /\ Z.of_nat j = (- e)%Z).
Inductive token_text : token -> string -> Prop :=
| tx_word k : word k -> token_text (TIdent k) k
| tx_num t z : t <> "" -> digits 0 t z -> token_text (TNum z) t
| tx_dec a b m : a <> "" -> b <> "" -> digits 0 (a +++ b) m -> token_text (TDec m (String.length b)) (a +++ "." +++ b)
| tx_exp a f k e g i ds m x n j : a <> "" -> fraction f k -> digits 0 (a +++ k) m -> e = "e" \/ e = "E" -> exponent_sign g i ->
    ds <> "" -> digits 0 ds x -> power_of_ten m (i * x - Z.of_nat (String.length k)) n j ->
    token_text (TDec n j) (a +++ f +++ e +++ g +++ ds)
| tx_str t s : quoted t s -> token_text (TStr s) (quote +++ t +++ quote)
| tx_sym t s : In (t, s) symbols -> token_text t s
| tx_comment c : line_comment c -> token_text TNl (c +++ nl).

(* A token ends where no character follows that would belong to it. *)
Definition ends (t : token) (r : string) : Prop := forall c r', r = String c r' ->
  match t with
  | TIdent _ => ~ word_char c
  | TNum _ => ~ one_of c "0123456789.eE"
  | TDec _ _ => ~ one_of c "0123456789eE"
  | TEq => c <> "="%char
  | _ => True
  end.
(* Between tokens: blanks and comments that end with the first star and slash after their beginning. *)
Definition blank_char (c : ascii) : Prop := c = " "%char \/ c = "009"%char.
Inductive gap : string -> Prop :=
| gp_none : gap ""
| gp_blank c b : blank_char c -> gap b -> gap (String c b)
| gp_comment t b : (forall x y, t +++ "*/" = x +++ "*/" +++ y -> y = "") -> gap b -> gap ("/*" +++ t +++ "*/" +++ b).
Inductive spelled : list token -> string -> Prop :=
| sp_end b : gap b -> spelled [] b
| sp_comment b c : gap b -> line_comment c -> spelled [] (b +++ c)
| sp_more b t x ts r : gap b -> token_text t x -> ends t r -> spelled ts r -> spelled (t :: ts) (b +++ x +++ r).

(* No comment stands between an equals sign and what follows it. *)
Definition bare_values (s : string) : Prop :=
  forall a b c ts, s = a +++ "=" +++ b +++ "/*" +++ c -> only blank_char b -> ~ spelled ts a.

(* ----- bodies ----- *)

Definition newlines (ts : list token) : Prop := forall t, In t ts -> t = TNl.
Definition reserved (x : string) : Prop := x = "true" \/ x = "false" \/ x = "null".
Inductive g_expr : list token -> expr -> Prop :=
| g_num z : g_expr [TNum z] (ENum z)
| g_neg z : g_expr [TMinus; TNum z] (ENum (- z))
| g_dec m k : g_expr [TDec m k] (EDec m k)
| g_negdec m k : g_expr [TMinus; TDec m k] (EDec (- m) k)
| g_str s : g_expr [TStr s] (EStr s)
| g_true : g_expr [TIdent "true"] (EBool true)
| g_false : g_expr [TIdent "false"] (EBool false)
| g_null : g_expr [TIdent "null"] ENull
| g_var x : ~ reserved x -> g_expr [TIdent x] (EVar x)
| g_call f : g_expr [TIdent f; TLParen; TRParen] (ECall f)
| g_tuple ts l : g_elems ts l -> g_expr (TLBrack :: ts ++ [TRBrack]) (ETuple l)
| g_object ts m : g_entries true ts m -> g_expr (TLBrace :: ts ++ [TRBrace]) (EObj m)
(* elements with commas between them, and perhaps after them *)
with g_elems : list token -> list expr -> Prop :=
| ge_none ns : newlines ns -> g_elems ns []
| ge_last ns ts e ns' : newlines ns -> g_expr ts e -> newlines ns' -> g_elems (ns ++ ts ++ ns') [e]
| ge_more ns ts e ns' r l : newlines ns -> g_expr ts e -> newlines ns' -> g_elems r l ->
    g_elems (ns ++ ts ++ ns' ++ TComma :: r) (e :: l)
(* entries with a comma or newline between them; the first may not be called "for" *)
with g_entries : bool -> list token -> list (string * expr) -> Prop :=
| gn_none first ns : newlines ns -> g_entries first ns []
| gn_last first ns k eq ts e : newlines ns -> (first = true -> k <> "for") -> eq = TEq \/ eq = TColon -> g_expr ts e ->
    g_entries first (ns ++ TIdent k :: eq :: ts) [(k, e)]
| gn_more first ns k eq ts e sep r m : newlines ns -> (first = true -> k <> "for") -> eq = TEq \/ eq = TColon -> g_expr ts e ->
    sep = TNl \/ sep = TComma -> g_entries false r m ->
    g_entries first (ns ++ TIdent k :: eq :: ts ++ sep :: r) ((k, e) :: m).

Inductive g_labels : list token -> list string -> Prop :=
| gl_none : g_labels [] []
| gl_str s ts ls : g_labels ts ls -> g_labels (TStr s :: ts) (s :: ls)
| gl_word s ts ls : g_labels ts ls -> g_labels (TIdent s :: ts) (s :: ls).
(* One name of an attribute is used once. *)
Definition fresh (i : item) (its : list item) : Prop := forall k e e', i = IAttr k e -> ~ In (IAttr k e') its.
(* Every item ends with a newline; the last of a document (not of a block) need not. *)
Inductive g_body : bool -> list token -> list item -> Prop :=
| gb_none nested : g_body nested [] []
| gb_nl nested ts its : g_body nested ts its -> g_body nested (TNl :: ts) its
| gb_last ts i : g_item ts i -> g_body false ts [i]
| gb_more nested ts i r its : g_item ts i -> g_body nested r its -> fresh i its -> g_body nested (ts ++ TNl :: r) (i :: its)
with g_item : list token -> item -> Prop :=
| gim_attr k ts e : g_expr ts e -> g_item (TIdent k :: TEq :: ts) (IAttr k e)
| gim_block k lt ls ts b : g_labels lt ls -> g_body true ts b -> (ts = [] \/ exists r, ts = TNl :: r) ->
    g_item (TIdent k :: lt ++ TLBrace :: ts ++ [TRBrace]) (IBlock k ls b)
(* on one line: one attribute *)
| gim_line k lt ls a ts e : g_labels lt ls -> g_expr ts e ->
    g_item (TIdent k :: lt ++ TLBrace :: TIdent a :: TEq :: ts ++ [TRBrace]) (IBlock k ls [IAttr a e]).

(* The text is the document with these items. *)
Definition hcl_document (s : string) (its : list item) : Prop := exists ts, spelled ts s /\ g_body false ts its.
(* Nothing but white space. *)
Definition white : string -> Prop := only (fun c => c = " "%char \/ c = "009"%char \/ c = "010"%char).
