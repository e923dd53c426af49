# Formal model of go-protoparser

## What is modelled

The Go source in /repo is read as text.  The model is a set of total Gallina
functions, one per Go function, in `rocq/theories`:

| file | models |
|------|--------|
| Base.v | runes, strings as rune lists, character classes, UTF-8 decoding |
| Token.v | lexer/scanner/token.go, mode.go, boolLit.go, floatLit.go |
| Scanner.v | lexer/scanner/*.go: positions, read/unread/peek, Scan, UnScan, literals, comments |
| Lexer.v | lexer/*.go: Next*, UnNext, Peek, PeekN, ConsumeToken, ReadFullIdent, ReadMessageType, ReadConstant, ReadEmptyStatement, FindMidComments |
| Ast.v | the struct types of package parser |
| Parser.v | every Parse function of package parser |
| Visitor.v | every Accept method |
| Unordered.v | interpret/unordered |
| Api.v | protoparser.go (options, Parse), Comment.Lines, Syntax.Version, Position.String |
| Conformance.v | not a proof: the table-driven Go test cases evaluated in the model |

Everything is written in one state and error monad `M A = st -> res A * st`
with `res = Ok | Err | Panic | Fuel`.  The state holds the scanner and lexer
fields.  The state survives errors, because the parser recovers from errors.

Loops and recursion take fuel.  Running out of fuel is the explicit value
`Fuel`; it is never mapped to a normal result.

### Simplifications

* The scanner's stack of un-read runes and the reader are one list `rest`
  (`ReadBuffer.v` proves that the two-buffer version behaves the same).
* A failing `io.Reader` is a NUL rune in the input: the scanner's `read`
  returns rune 0 in both cases.
* Strings are lists of runes.  Bytes appear in UTF-8 decoding and in offsets.
* Integers (offset, line, column) are unbounded.
* Error values keep position, expected text, found text; not the Go source
  location.  Log output and debug mode are not modelled.
* RawText and lastScanRaw are values in Scanner.v and Lexer.v; Slices.v has the arrays
  behind them and C52 proves that they agree for the library's own calls.  That
  these calls have the form `library` is read off lexer.go:160-172 and groupField.go:125-169.
* nil and empty slices are identified; pointers are values (no aliasing: the
  parser never mutates a node after storing it, except as noted in Parser.v).
* User-defined `Option` functions other than the four exported ones are not modelled.

The text `Error()` builds is modelled in ErrText.v; the Go file and line in it
(`runtime.Caller`) and the table behind `strconv.IsPrint` are left arbitrary.

Not modelled: the example programs, the tests, `internal/` and `go.mod`.

## Proof architecture

1. `Scan` on a NUL-free input equals a pure lexer on rune lists (`plex`), and
   positions are a function of the consumed text.
2. The imperative parser equals a pure recursive descent parser on cursors
   (consumed text, remaining text), with no un-reading.
3. The pure parser is proved sound and complete for a declarative grammar that
   mentions neither parser (Grammar.v).
4. Properties of the AST and of its place in the text follow from the
   derivations of this grammar, by induction on derivations.
5. Lockstep theorems (file name, bodyIncludingComments, permissive mode)
   compare two runs of a model directly.
6. Claims that are false of the code are stated in full in
   properties.jsonl; the model has a `_refuted` theorem with a concrete input,
   and, where useful, a `_partial` theorem with the extra hypothesis that makes
   the claim true.

### Files with proofs

Specification files contain definitions only; they use the AST and position types
and character classes of the model, but name neither its scanner, lexer nor parser: LexSpec, NameSpec, Spec, GroupSpec, Tree, Grammar, AttachSpec, DeclSpec, KindSpec,
VisitSpec, BareSpec, PartSpec, FoundSpec, PrintSpec, SimSpec, AstMap, Regular, SaidSpec, SaidDeclSpec, ConcatSpec, HeldSpec, BulkSpec, AgreeSpec, BlankSpec; MethodSpec, which pairs the methods with the productions, also names the methods, and LookSpec, which collects the answers to calls of Scan, names Scan.
Files Prop*.v contain property theorems only, each closed by `exact`.

| subject | files | property theorems |
|---------|-------|-------------------|
| scanner and lexer | Lexing, ScanRefine, LexFacts, LexSpec, LexProofs, ScanFacts, LexerFacts, ScanProps, ScanThms, ReadBuffer, Utf8 | PropScan |
| how far the scanner looks | LookSpec, Look | PropLook |
| dotted names | NameSpec, Names | PropNames |
| small observers, unordered, Accept | Spec, Direct, Walk | PropApi |
| kinds of statements, UnorderedInterpret, visitor calls | KindSpec, Kinds, VisitSpec, Visits | PropKinds |
| witnesses | Refuted | PropRefuted |
| pure parser and refinement | Cursor, Pure, Refine, RefineRules, RefineParser, RefineFile | |
| files with groups, see below | Strict, StrictSim | |
| termination | FuelMono, Diverge, GroupSpec, Want, GroupFree, Closed, SettledCase, Term, Term2, Total, Explode | PropTerm |
| invariants of all runs | Inv, Bound | PropBound |
| comparing two runs | AstMap, SimSpec, Simul, SimCases, SimCase, Bom | PropSim |
| white space in front of a text | BlankSpec, BlankScan, Blank, BlankFile, BlankCase | PropBlank |
| grammar, completeness | Grammar, GramLex, GramRules, GramNames, GramValues, GramStmts, GramParts, GramBodies, GramMsg, GramFile, GramCase, GramPanic | PropGram |
| soundness | Junk, SndLex, SndRules, SndNames, SndStmts, SndParts, SndDrop, SndBodies, SndFile, SndCase | PropSound |
| AST in the text | Tree, Regular, Deep, DeepText, DeepForm, DocCase | PropTree |
| AST of any accepted input | Shape, ShapeTree, ShapeParse | PropShape |
| comments | AttachSpec, Attach, AttachText, AttachCase, DeclSpec, AttachDecl, DeclCase | PropAttach |
| layout | BareSpec, Relay, RelayFile | PropRelay |
| texts one behind the other | ConcatSpec, Down, Concat | PropConcat |
| no comment held twice | HeldSpec, Held, HeldCase | PropHeld |
| size of the AST | BulkSpec, Bulk, BulkCase | PropBulk |
| parts of statements | PartSpec, Parts, PartCase | PropParts |
| permissive mode | LexModes, AgreeSpec, Lock, Agree, LockPerm, LockFile, PermitFile | PropPermit |
| panics on any text | NoPanic | PropPanic |
| text of errors | ErrText, ErrTextFacts, ErrMade, ErrTextCase | PropText |
| methods called directly | MethodSpec, Methods, MethodCase | PropMethods |
| errors | Calm, FoundSpec, Found, Few, ErrSize, StrictFound | PropFound |
| printing | PrintSpec, Print, PrintParts, PrintStmts, PrintFile, PrintCase | PropPrint |
| what nodes say | SaidSpec, Said, SaidImport, SaidCase, SaidDeclSpec, SaidDecl | PropSaid |

### Hypotheses that recur

* `readable input`: every rune is one that UTF-8 decoding yields, and none is NUL.
* `no_groups input`: the heading of a group (`group Name = 1 {`) occurs nowhere in
  the text; the word "group" may, in comments, strings and names.
* `settled input`: behind each heading of a group all comments are closed (and the
  text does not end in a slash), and the words "extensions" and "reserved" do not
  occur.  Groups may fail to parse in such a text; the junk statements they are
  taken for end at a semicolon of the text.
* `regular input pr`: the text is settled, or
  no message or group of the AST has an empty statement directly in its body.
* `ordinary c input pr`: the text is regular, or it is a text of the documented
  grammar (`documented`), with groups and empty statements as it likes.  What is left
  out are texts with a heading of a group in which a statement does not parse and
  that are not settled.
  An error inside a group body is taken for a junk statement by
  the body around it and may be turned into an empty statement; the parser then
  continues at a place that has nothing to do with the structure of the
  text.  That such texts behave badly is the subject of C01_refuted,
  C04_refuted_unbalanced, C04_refuted_comment_as_code, C36_refuted.
* The parameter `junk` of the grammar: with `false` it is the documented grammar
  (completeness), with `true` it also has what the parser accepts beyond it
  (soundness): the words of a statement that breaks off at a semicolon, unequal
  quotes, a word behind `import`, missing commas between reserved names.
  Which words may be dropped is said by `CutField`, `CutEnumField` and `CutGroup`:
  the beginning of a field (in an enum: of an enum field) that lacks what has to
  stand in front of the semicolon, and the heading of a group with what follows it.
  The word behind `import` is neither `public` nor `weak`.

### Fuel

`parse_fuel n` bounds every loop and the nesting by `n`.  `Fuel` as a result for
every `n` means that the Go code does not return (C01_refuted).
C01_fuel_partial shows that the outcome does not depend on `n` once it is not
`Fuel`, and C01_partial that the `n` used by `Parse` is enough on texts without
NUL that are settled.

### Productions of the documented grammar that the code does not have

C03_refuted has witnesses; the grammar of Grammar.v leaves them out: an empty
statement at the end of a oneof, a group in a oneof or an extend, a comment
behind a top level semicolon on its line; and floats such as `01.5` (C11_refuted).

## Trusted base

The Coq 8.16.1 kernel with its `vm_compute`; the reading of the Go code into the
model (every definition cites file and lines); Go's standard library
(unicode.IsSpace, utf8, bufio, strings) as described in comments.  Every
property theorem is followed by `Print Assumptions`, and every one prints
"Closed under the global context": no axiom is used, neither of the standard
library nor our own.  Loading the standard library's `Lia`/`ssr` plugins brings
the parameters of module type instances named `Coq.ssr.ssrunder.Under_rel.*` into
the environment; no theorem depends on them.

Validation of the model that is not proof: Conformance.v evaluates the
table-driven Go test cases in the model; seeded/LOG.jsonl records wrong versions
of the model and the theorems that fail on them.

## Plan and outcome per property

See MANIFEST.json for the theorem names.

| id | how |
|----|------|
| C01 | refuted (nested groups); fuel bound by induction on the remaining length for settled texts: an error inside a group body leaves the parser at a semicolon further on or ends the parse |
| C02 | refuted (`; // c`); the class of panicking texts from both sides; for any text no panic without `;` and `/` (invariant on the runes held), and none from the other methods |
| C03 | completeness of the pure parser for the grammar, all layouts |
| C04 | refuted (junk dropped before `;`); soundness with the deviations of the grammar; what is dropped is a field, an enum field or a group that breaks off at the `;` (SndDrop: a logic for the errors of the field parsers) |
| C05 | positions in the derivations (Deep, DeepText); refuted for the column of a comment in front of a semicolon that is un-read twice (DocCase, C05_refuted) |
| C06 C07 C08 C10 C13 C14 | refinement of Scan to the pure lexer |
| C09 | a derivation moved to another layout (Relay), then C03 |
| C11 C12 | literal grammar, both directions |
| C15 C16 C18 | lexer functions over the pure lexer |
| C17 | UTF-8 round trip and offsets |
| C19 C21 C34 | comments in the derivations |
| C20 C22 C41 | lockstep of two runs, all inputs |
| C23 C53 | lockstep of the parser in both modes over all texts without NUL (Lock*), comparing what is left unread, lines and the nodes built; errors that only one mode meets are in front of a token that is not a semicolon, from which neither recovers; refuted with NUL, and C53 by a literal that ends in an escaped quote |
| C54 | lockstep of two runs, all inputs without NUL: the white space is pending until the first token is taken, which the parser reads and un-reads several times, and from there on the two runs are related as in C20; an error on that token has the position in front of the white space (C54_error_refuted) |
| C55 | the pure lexer on two texts with a common beginning, then the refinement of Scan; positions in histories by the invariant of C08 |
| C24 C26 C28 C29 C38 C39 | direct |
| C25 C27 C42 | kinds of statements, an invariant of all runs |
| C30 | invariant of all runs; form of type names from the derivations |
| C31 C37 | refuted by witnesses |
| C32 C33 | constants and reserved statements in the derivations |
| C35 C36 C43 | invariants of all runs; with the refinement, what stands at the position of an error |
| C40 | ReadBuffer.v refinement |
| C44 | the words of a derivation's AST derive again (Print*), then C03 |
| C45 | induction over the derivation of each element (Deep): tokens grouped into the words of the node; permissive lists up to the token that closes them; an import without modifier says its location, with at most one stray token in front |
| C46 | quoting and decimal notation are injective and self-delimiting; induction over pairs of errors |
| C47 | no method raises a scanner error: induction over the parser monad |
| C48 | completeness and soundness of each production, carried along a sequence of calls by the refinement to cursors |
| C49 | derivations of the second text moved down (Down), joined to those of the first, then C03 |
| C50 | comments of an element counted against those of its items (Held), items at increasing offsets (DeepText), C04 |
| C51 | size of an element bounded by the characters of its items (Bulk), items disjoint in the text, C04 |
| C52 | heap of arrays (Slices), simulation by values with the array the scanner writes into |
