(** The texts of the kinds of tokens. *)
From Coq Require Import List NArith ZArith Bool String Ascii Lia.
From Verif Require Import Base Token Scanner Lexing ScanRefine LexFacts LexSpec LexProofs ScanFacts LexerFacts ScanProps Grammar.
Import ListNotations.
Open Scope N_scope.

(** the texts of a kind of token *)
Definition want (t : token) (x : str) : Prop :=
  match t with
  | TIDENT => is_ident x | TINTLIT => is_int x | TFLOATLIT => is_plain_float x | TSTRLIT => is_str x
  | TBOOLLIT => words ["true"; "false"]%string x
  | TSEMICOLON => x = lit ";" | TCOLON => x = lit ":" | TEQUALS => x = lit "=" | TQUOTE => is_quote x
  | TLEFTPAREN => x = lit "(" | TRIGHTPAREN => x = lit ")" | TLEFTCURLY => x = lit "{" | TRIGHTCURLY => x = lit "}"
  | TLEFTSQUARE => x = lit "[" | TRIGHTSQUARE => x = lit "]" | TLESS => x = lit "<" | TGREATER => x = lit ">"
  | TCOMMA => x = lit "," | TDOT => x = lit "." | TMINUS => x = lit "-" | TBOM => x = [0xFEFF]
  | TILLEGAL | TEOF | TCOMMENT => True
  | TSYNTAX => x = lit "syntax" | TEDITION => x = lit "edition" | TSERVICE => x = lit "service" | TRPC => x = lit "rpc" | TRETURNS => x = lit "returns"
  | TMESSAGE => x = lit "message" | TEXTEND => x = lit "extend" | TIMPORT => x = lit "import" | TPACKAGE => x = lit "package" | TOPTION => x = lit "option"
  | TREPEATED => x = lit "repeated" | TREQUIRED => x = lit "required" | TOPTIONAL => x = lit "optional" | TWEAK => x = lit "weak" | TPUBLIC => x = lit "public"
  | TONEOF => x = lit "oneof" | TMAP => x = lit "map" | TRESERVED => x = lit "reserved" | TEXTENSIONS => x = lit "extensions" | TNUMBER => x = lit "number"
  | TFULLNAME => x = lit "full_name" | TTYPE => x = lit "type" | TDECLARATION => x = lit "declaration" | TENUM => x = lit "enum" | TSTREAM => x = lit "stream"
  | TGROUP => x = lit "group"
  end.
Lemma misc_want c : want (asMiscToken c) [c].
Proof.
  unfold asMiscToken. repeat match goal with |- context[c =? ?b] => destruct (N.eqb_spec c b) as [->|]; [solve [reflexivity | left; reflexivity | right; reflexivity]|] end.
  exact I.
Qed.
Lemma want_kw name t : In (name, t) keywords -> want t (lit name).
Proof.
  intros I. unfold keywords in I. cbn [In] in I.
  repeat (destruct I as [I|I]; [injection I as <- <-; reflexivity|]). destruct I.
Qed.
Lemma kind_want m t x : lexed_kind m t x -> want t x.
Proof.
  intros [|y I|y _|y H|y H|y H| |c H]; try exact Logic.I; try assumption; [|apply misc_want].
  unfold identToken. destruct (_ && isBoolLit y) eqn:E1.
  { apply andb_true_iff in E1. destruct E1 as [_ E1]. unfold isBoolLit in E1. rewrite orb_true_iff, !str_eqb_eq in E1. destruct E1 as [->| ->]; [left|right; left]; reflexivity. }
  destruct (_ && isFloatLitKeyword y) eqn:E2.
  { apply andb_true_iff in E2. destruct E2 as [_ E2]. unfold isFloatLitKeyword in E2. rewrite orb_true_iff, !str_eqb_eq in E2. destruct E2 as [->| ->]; [apply pfloat_inf|apply pfloat_nan]. }
  destruct (_ && negb _) eqn:E3; [|exact I].
  apply andb_true_iff in E3. destruct E3 as [_ E3].
  destruct (token_eq_dec (asKeywordToken y) TILLEGAL) as [Q|Q]; [rewrite Q; exact Logic.I|].
  destruct (proj1 (keyword_spec y _ Q) eq_refl) as (n & -> & J). apply want_kw. exact J.
Qed.
