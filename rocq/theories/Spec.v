(** Small specifications used by the properties, independent of the model's
    functions (they only use the AST types). *)
From Coq Require Import List NArith ZArith Bool String Ascii.
From Verif Require Import Base Token Scanner Ast.
Import ListNotations.

(** ** All comments held by an AST *)
Definition oc (c : option comment) : list comment := match c with Some c => [c] | None => [] end.
Definition option_comments (o : option_) : list comment := op_comments o ++ oc (op_inline o).

Fixpoint stmt_comments (v : visitee) : list comment :=
  let body := fix body (l : list visitee) :=
    match l with [] => [] | x :: l' => stmt_comments x ++ body l' end in
  match v with
  | VNil => []
  | VComment c => [c]
  | VImport x => im_comments x ++ oc (im_inline x)
  | VPackage x => pk_comments x ++ oc (pk_inline x)
  | VOption x => option_comments x
  | VEmpty x => oc (em_inline x)
  | VField x => f_comments x ++ oc (f_inline x)
  | VMapField x => mf_comments x ++ oc (mf_inline x)
  | VGroupField x => g_comments x ++ oc (g_inlineLC x) ++ body (g_body x) ++ oc (g_inline x)
  | VOneof x => oo_comments x ++ oc (oo_inlineLC x)
                ++ flat_map (fun f => oof_comments f ++ oc (oof_inline f)) (oo_fields x)
                ++ flat_map option_comments (oo_options x) ++ oc (oo_inline x)
  | VEnumField x => ef_comments x ++ oc (ef_inline x)
  | VRPC x => r_comments x ++ r_embedded x ++ oc (r_inlineLC x)
              ++ flat_map option_comments (r_options x) ++ oc (r_inline x)
  | VReserved x => rs_comments x ++ oc (rs_inline x)
  | VExtensions x => xs_comments x ++ oc (xs_inlineLS x)
                     ++ flat_map (fun d => d_comments d ++ oc (d_inlineLC d) ++ oc (d_inline d)) (xs_declarations x)
                     ++ oc (xs_inline x)
  | VMessage x | VEnum x | VService x | VExtend x =>
    b_comments x ++ oc (b_inlineLC x) ++ body (b_body x) ++ oc (b_inline x)
  end.
Definition proto_comments (p : proto) : list comment :=
  match p_syntax p with Some x => sy_comments x ++ oc (sy_inline x) | None => [] end
  ++ match p_edition p with Some x => ed_comments x ++ oc (ed_inline x) | None => [] end
  ++ flat_map stmt_comments (p_body p).

(** ** Positions of an error *)
Fixpoint err_positions (e : err) : list mpos :=
  match e with
  | EScan p _ _ => [p]
  | ELex p _ _ => [p]
  | EParse p _ _ _ => [p]
  | EPair a b => err_positions a ++ err_positions b
  end.
(** size of an error: the message that the Go code builds from it has at least so
    many runes (it quotes the text found) *)
Fixpoint err_size (e : err) : N :=
  match e with
  | EScan _ _ _ => 1
  | ELex _ _ t => 1 + N.of_nat (List.length t)
  | EParse _ _ t _ => 1 + N.of_nat (List.length t)
  | EPair a b => err_size a + err_size b
  end.

(** ** A reader: the runes it delivers and whether it then fails or ends *)
Inductive read_end := ReadEOF | ReadFails.
Record reader := mkReader { rd_runes : list rune; rd_end : read_end }.
