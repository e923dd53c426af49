(** Model of the Accept methods (the visitor pattern of package parser).

    A visitor is any Go value with the 21 Visit methods of parser/visitor.go:4-26.
    It is modelled by a state type [S] and one function from the visited node
    and the state to the [next] flag and the new state; VisitComment returns
    no flag, so the flag is ignored for comments. *)
From Coq Require Import List NArith ZArith Bool String.
From Verif Require Import Base Token Scanner Ast.
Import ListNotations.

(** The argument types of the Visit methods. *)
Inductive node :=
| NComment (c : comment)
| NDeclaration (d : declaration)
| NEdition (e : edition)
| NSyntax (s : syntax)
| NOneofField (f : oneofField)
| NVisitee (v : visitee).  (* the node types that also occur in bodies *)

Section Accept.
Variable S : Type.
Variable visit : node -> S -> bool * S.

(** A walk: the state afterwards, and whether it stopped by a panic. *)
Definition walk := S -> S * bool.
Definition w_done : walk := fun s => (s, false).
Definition w_panic : walk := fun s => (s, true).
Definition w_then (a b : walk) : walk :=
  fun s => let '(s', p) := a s in if p then (s', true) else b s'.
(** [if !v.VisitX(x) { return }; rest] *)
Definition w_visit (n : node) (k : walk) : walk :=
  fun s => let '(next, s') := visit n s in if next then k s' else (s', false).

(** parser/comment.go:42-44 Comment.Accept *)
Definition accept_comment (c : comment) : walk := fun s => (snd (visit (NComment c) s), false).
Fixpoint w_all {A} (f : A -> walk) (l : list A) : walk :=
  match l with
  | [] => w_done
  | x :: l' => w_then (f x) (w_all f l')
  end.
Definition accept_comments : list comment -> walk := w_all accept_comment.
Definition accept_inline (c : option comment) : walk :=
  match c with Some c => accept_comment c | None => w_done end.
(** The tail of most Accept methods: comments, then the inline comment. *)
Definition tail2 (cs : list comment) (i : option comment) : walk :=
  w_then (accept_comments cs) (accept_inline i).
(** ... then the comment behind the left curly. *)
Definition tail3 (cs : list comment) (i lc : option comment) : walk :=
  w_then (tail2 cs i) (accept_inline lc).

(** parser/syntax.go:29-40 *)
Definition accept_syntax (x : syntax) : walk := w_visit (NSyntax x) (tail2 (sy_comments x) (sy_inline x)).
(** parser/edition.go:29-40 *)
Definition accept_edition (x : edition) : walk := w_visit (NEdition x) (tail2 (ed_comments x) (ed_inline x)).
(** parser/declaration.go:32-46 *)
Definition accept_declaration (x : declaration) : walk :=
  w_visit (NDeclaration x) (tail3 (d_comments x) (d_inline x) (d_inlineLC x)).
(** parser/oneof.go:29-40 *)
Definition accept_oneofField (x : oneofField) : walk :=
  w_visit (NOneofField x) (tail2 (oof_comments x) (oof_inline x)).
(** parser/option.go:29-40 *)
Definition accept_option (x : option_) : walk :=
  w_visit (NVisitee (VOption x)) (tail2 (op_comments x) (op_inline x)).

(** The Accept methods of the nodes that occur in bodies: import.go:37-48,
    package.go:26-37, option.go:29-40, emptyStatement.go:15-23, field.go:38-49,
    mapField.go:30-41, groupField.go:39-56, oneof.go:65-82, enum.go:49-60,
    service.go:51-62, reserved.go:45-56, extensions.go:29-43, message.go:46-63,
    enum.go:85-102, service.go:86-103, extend.go:45-62.  Calling Accept on a nil
    interface value panics. *)
Fixpoint accept (x : visitee) : walk :=
  let body := fix body (l : list visitee) : walk :=
    match l with
    | [] => w_done
    | y :: l' => w_then (accept y) (body l')
    end in
  match x with
  | VNil => w_panic
  | VComment c => accept_comment c
  | VImport i => w_visit (NVisitee x) (tail2 (im_comments i) (im_inline i))
  | VPackage p => w_visit (NVisitee x) (tail2 (pk_comments p) (pk_inline p))
  | VOption o => accept_option o
  | VEmpty e => w_visit (NVisitee x) (accept_inline (em_inline e))
  | VField f => w_visit (NVisitee x) (tail2 (f_comments f) (f_inline f))
  | VMapField m => w_visit (NVisitee x) (tail2 (mf_comments m) (mf_inline m))
  | VGroupField g =>
    w_visit (NVisitee x) (w_then (body (g_body g)) (tail3 (g_comments g) (g_inline g) (g_inlineLC g)))
  | VOneof o =>
    w_visit (NVisitee x)
      (w_then (w_all accept_oneofField (oo_fields o))
        (w_then (w_all accept_option (oo_options o)) (tail2 (oo_comments o) (oo_inline o))))
  | VEnumField e => w_visit (NVisitee x) (tail2 (ef_comments e) (ef_inline e))
  | VRPC r => w_visit (NVisitee x) (tail2 (r_comments r) (r_inline r))
  | VReserved r => w_visit (NVisitee x) (tail2 (rs_comments r) (rs_inline r))
  | VExtensions e =>
    w_visit (NVisitee x)
      (w_then (w_all accept_declaration (xs_declarations e)) (tail2 (xs_comments e) (xs_inline e)))
  | VMessage m | VEnum m | VService m | VExtend m =>
    w_visit (NVisitee x) (w_then (body (b_body m)) (tail3 (b_comments m) (b_inline m) (b_inlineLC m)))
  end.

(** parser/proto.go:21-32 Proto.Accept *)
Definition accept_proto (p : proto) : walk :=
  w_then (match p_syntax p with Some x => accept_syntax x | None => w_done end)
    (w_then (match p_edition p with Some x => accept_edition x | None => w_done end)
            (w_all accept (p_body p))).
End Accept.
