{"id": "C01", "title": "Parse terminates on every input", "statement": "protoparser.Parse returns (a Proto or an error) for every input text and every option set; no input makes it loop forever.", "quantifier": "every finite input text, every ParseConfig", "why_tests_cant": "The parser backtracks (UnNext) and recovers from errors inside statement loops; a test can only show that a particular input came back. Non-termination hides in one particular combination of recovery and lookahead.", "anchors": ["protoparser.go:Parse", "parser/message.go:parseMessageBody", "parser/groupField.go:ParseGroupField", "lexer/lexer.go:UnNext", "lexer/scanner/scanner.go:UnScan"]}
{"id": "C02", "title": "Parse never panics", "statement": "For every input protoparser.Parse returns normally; it never panics. Failing that: the exact class of inputs that panic.", "quantifier": "every finite input text, every ParseConfig", "why_tests_cant": "A panic needs one specific token adjacency out of infinitely many; a test suite that never writes it stays green.", "anchors": ["parser/proto.go:parseProtoBody", "parser/inlineComment.go:MaybeScanInlineComment"]}
{"id": "C03", "title": "Grammar completeness of Parse", "statement": "Every text that is derivable in the documented protobuf grammar (tokens separated by any whitespace and comments) is accepted by Parse, and the AST returned is the one denoted by the derivation: same statements, in the same order, same names, types, numbers, labels, options.", "quantifier": "every derivation of the grammar, of any depth and length, and every layout of its tokens", "why_tests_cant": "The set of valid files is infinite and recursive; tests sample it.", "anchors": ["protoparser.go:Parse", "parser/proto.go:ParseProto", "parser/message.go:ParseMessage", "parser/field.go:ParseField", "parser/enum.go:ParseEnum", "parser/service.go:ParseService", "parser/extend.go:ParseExtend", "parser/option.go:ParseOption"]}
{"id": "C04", "title": "Grammar soundness of Parse", "statement": "If Parse returns a Proto without error then the input is a derivation of the grammar and each AST node describes exactly the source text it came from: nothing in the file is silently dropped.", "quantifier": "every input text accepted by Parse", "why_tests_cant": "Needs a negative fact about all inputs outside the language; tests only try a few malformed files.", "anchors": ["parser/message.go:parseMessageBody", "parser/enum.go:parseEnumBody", "parser/extend.go:parseExtendBody", "lexer/emptyStatement.go:ReadEmptyStatement"]}
{"id": "C05", "title": "Node positions delimit the node's text", "statement": "In an accepted file, the Pos of every statement is the position of its first character and its LastPos is the position of its last token; Pos comes before LastPos, siblings come in increasing order without overlap, and children lie within their parent.", "quantifier": "every accepted input and every node of the AST", "why_tests_cant": "Positions are recomputed through read/unread with a per-line column table; a drift appears only after particular backtracking histories.", "anchors": ["parser/meta/meta.go:Meta", "parser/meta/position.go:Position", "lexer/scanner/position.go:Advance,Revert", "lexer/lexer.go:UnNext"]}
{"id": "C06", "title": "Scan followed by UnScan is the identity on what is read next", "statement": "After any Scan (in any mode, on any remaining input without NUL characters) UnScan restores the remaining input and the position: the following Scan sees exactly the same characters at exactly the same offset, line and column.", "quantifier": "every scanner state reachable by consuming a prefix of a NUL-free input, every mode bit mask", "why_tests_cant": "Depends on multi-line tokens, tabs/newlines inside comments and multi-byte runes in every combination.", "anchors": ["lexer/scanner/scanner.go:Scan,UnScan,read,unread,peek", "lexer/scanner/position.go:Revert"]}
{"id": "C07", "title": "A token's literal is the source text at its position", "statement": "For every successful Scan returning a token other than EOF, the input from the reported position on starts with the returned literal, and the characters skipped before it are only whitespace and (outside comment mode) comments.", "quantifier": "every NUL-free remaining input, every mode", "why_tests_cant": "Universal over input text; a scanner that drops or duplicates a rune in a rare state passes ordinary tests.", "anchors": ["lexer/scanner/scanner.go:Scan,scan"]}
{"id": "C08", "title": "Positions are a function of the consumed text", "statement": "At any time the scanner's position is offset = number of bytes of the UTF-8 encoding of the text consumed, line = 1 + number of newlines, column = 1 + number of characters since the last newline, whatever sequence of Scan/UnScan led there.", "quantifier": "every history of reads and unreads over every NUL-free text", "why_tests_cant": "History-quantified; wrong column restoration shows up only when un-reading across line breaks.", "anchors": ["lexer/scanner/position.go:Position.Advance,Position.Revert,Position.columns", "lexer/scanner/scanner.go:read,unread"]}
{"id": "C09", "title": "Layout does not matter", "statement": "Two texts that consist of the same tokens and differ only in the whitespace and comments between them are both accepted or both rejected by the grammar-directed parse and give the same AST up to positions and comments.", "quantifier": "every grammatical token sequence and every pair of layouts", "why_tests_cant": "Infinite number of layouts; every parser function's peek/unread pattern must be layout-agnostic.", "anchors": ["lexer/scanner/scanner.go:scan", "parser/comment.go:ParseComments", "parser/inlineComment.go:MaybeScanInlineComment"]}
{"id": "C10", "title": "Identifier scanning is maximal munch", "statement": "When the next non-skipped character is a letter or underscore, Scan returns the longest prefix made of letters, digits and underscores; the next character, if any, is none of these. Letters and digits are ASCII only.", "quantifier": "every NUL-free input, every mode", "why_tests_cant": "Universal over identifiers and what follows them.", "anchors": ["lexer/scanner/ident.go:scanIdent", "lexer/scanner/lettersdigits.go"]}
{"id": "C11", "title": "Number literals follow the documented lexical grammar", "statement": "In number-literal mode, a returned TINTLIT is a decimal, octal or hexadecimal literal of the spec and a TFLOATLIT is a float literal of the spec, and conversely every such literal followed by a delimiter is returned whole with the right token kind.", "quantifier": "every literal of the grammar and every input", "why_tests_cant": "Infinite set of literals, with interplay of leading zeros, exponents, signs.", "anchors": ["lexer/scanner/numberLit.go:scanNumberLit", "lexer/scanner/floatLit.go"]}
{"id": "C12", "title": "String literals follow the documented lexical grammar", "statement": "In string-literal mode every string literal of the documented grammar (a quote, plain characters and well formed hex, octal and char escapes, the same quote) is returned whole as a TSTRLIT. Conversely a returned TSTRLIT starts and ends with the same quote, contains no newline and no NUL, and the closing quote is the first one that is not escaped; the scanner is lenient about what follows a backslash.", "quantifier": "every string literal and every input", "why_tests_cant": "Escapes, quotes and newlines interact; infinitely many literals.", "anchors": ["lexer/scanner/strLit.go:scanStrLit,scanCharValue", "lexer/scanner/quote.go"]}
{"id": "C13", "title": "Comments are delimited exactly", "statement": "A // comment's text runs to (not including) the next newline or end of input; a /* comment runs to the first */ after the opener; a /* without */ or a lone / is an error.", "quantifier": "every NUL-free input", "why_tests_cant": "Universal over comment bodies such as /*/ , /***/ and comments at end of input.", "anchors": ["lexer/scanner/comment.go:scanComment"]}
{"id": "C14", "title": "Keywords are recognised only in keyword mode and only as whole identifiers", "statement": "In keyword mode an identifier equal to one of the reserved words is returned as that keyword's token and any other identifier as TIDENT; in other modes identifiers are never returned as keyword tokens (boolean and float names only in literal mode).", "quantifier": "every identifier, every mode", "why_tests_cant": "All identifiers, including those having a keyword as a proper prefix.", "anchors": ["lexer/scanner/token.go:asKeywordToken", "lexer/scanner/scanner.go:scan"]}
{"id": "C15", "title": "Peek and PeekN do not consume", "statement": "Lexer.Peek returns the token the next read would return, and PeekN(n) the token of the n-th next read, and afterwards the lexer reads on as if they had not been called (same remaining input, same position).", "quantifier": "every NUL-free remaining input and every n", "why_tests_cant": "PeekN concatenates raw texts of n scans and un-reads them at once; correctness is a statement over all n and all inputs.", "anchors": ["lexer/lexer.go:Peek,PeekN,PeekKeyword,LookAheadN,UnNextTo"]}
{"id": "C16", "title": "ConsumeToken consumes the token or nothing", "statement": "ConsumeToken(t) advances past the next token if it is t; otherwise it leaves the input and the position as they were. The lexer's Token tells the two cases apart.", "quantifier": "every NUL-free remaining input and token kind", "why_tests_cant": "Universal over states.", "anchors": ["lexer/lexer.go:ConsumeToken"]}
{"id": "C17", "title": "UTF-8 decoding and byte offsets agree with the input bytes", "statement": "For every valid UTF-8 input the sequence of runes scanned, re-encoded, is the input, and the byte offset of a token is the index of its first byte in the input. For invalid UTF-8 the offsets differ from the byte index.", "quantifier": "every byte sequence", "why_tests_cant": "All byte strings, including overlong and surrogate encodings.", "anchors": ["lexer/scanner/scanner.go:read", "lexer/scanner/position.go:Advance", "parser/meta/position.go:Offset"]}
{"id": "C18", "title": "Full identifiers and message types are read whole", "statement": "ReadFullIdent returns exactly the longest ident{.ident} sequence at the cursor joined by dots, and ReadMessageType the longest [.]ident{.ident}; whitespace and comments around the dots are dropped.", "quantifier": "every NUL-free remaining input", "why_tests_cant": "Universal over the length of the dotted name and layout.", "anchors": ["lexer/fullIdent.go:ReadFullIdent", "lexer/messageType.go:ReadMessageType", "lexer/enumType.go:ReadEnumType"]}
{"id": "C19", "title": "Comments are attached to the statement they precede or follow on the same line", "statement": "For every statement accepted, Comments is the list of all comments between the previous statement's end (and its inline comment) and the statement's first token, in order, and InlineComment is the comment that starts on the line where the statement ends, if one follows directly.", "quantifier": "every accepted input, every statement", "why_tests_cant": "Universal over comment/newline interleavings.", "anchors": ["parser/comment.go:ParseComments", "parser/inlineComment.go:MaybeScanInlineComment"]}
{"id": "C20", "title": "WithBodyIncludingComments only adds comment nodes", "statement": "Parsing with bodyIncludingComments=true gives the same outcome as with false, and the same AST after deleting the *Comment nodes from message, enum, service, extend bodies.", "quantifier": "every input text", "why_tests_cant": "A relation between two runs on every input.", "anchors": ["protoparser.go:WithBodyIncludingComments", "parser/message.go:parseMessageBody", "parser/enum.go:parseEnumBody", "parser/service.go:parseServiceBody", "parser/extend.go:parseExtendBody"]}
{"id": "C21", "title": "With bodyIncludingComments no comment in a body is lost", "statement": "If bodyIncludingComments is set, every comment inside a message, enum, service or extend body appears somewhere in the AST.", "quantifier": "every accepted input", "why_tests_cant": "Existential witness needed: one rare layout breaks it.", "anchors": ["parser/message.go:parseMessageBody", "parser/extend.go:parseExtendBody"]}
{"id": "C22", "title": "The file name only labels positions", "statement": "Changing WithFilename changes nothing in the outcome but the Filename of every position, which equals the configured name in all of them.", "quantifier": "every input text and pair of names", "why_tests_cant": "A relation between two runs on every input.", "anchors": ["protoparser.go:WithFilename", "lexer/lexer.go:WithFilename", "parser/meta/position.go:Filename"]}
{"id": "C23", "title": "Permissive mode accepts everything strict mode accepts", "statement": "If Parse succeeds with permissive=false it succeeds with permissive=true.", "quantifier": "every input text", "why_tests_cant": "A relation between two runs on every input; the two modes take different lookahead paths.", "anchors": ["protoparser.go:WithPermissive", "parser/option.go:parseOptionConstant", "lexer/constant.go:ReadConstant"]}
{"id": "C24", "title": "UnorderedInterpret keeps every statement, in order, in the list of its kind", "statement": "If InterpretProto (and InterpretMessage, InterpretEnum, InterpretService, InterpretExtend) succeeds, every statement of the body appears exactly once, in the list for its kind, in source order; and it succeeds exactly when the body has only statements of the kinds allowed there.", "quantifier": "every AST value, not only parsed ones", "why_tests_cant": "Universal over list contents and interleavings.", "anchors": ["interpret/unordered/proto.go:InterpretProto", "interpret/unordered/message.go:InterpretMessage", "interpret/unordered/enum.go:InterpretEnum", "interpret/unordered/service.go:InterpretService", "interpret/unordered/extend.go:InterpretExtend"]}
{"id": "C25", "title": "UnorderedInterpret succeeds on everything Parse returns", "statement": "For every input that Parse accepts, UnorderedInterpret of the result succeeds.", "quantifier": "every accepted input and ParseConfig", "why_tests_cant": "The failing shapes (empty statements in services, top level empty statements, comment nodes) are rare.", "anchors": ["protoparser.go:UnorderedInterpret", "interpret/unordered/service.go:interpretServiceBody", "parser/proto.go:parseProtoBody"]}
{"id": "C26", "title": "Accept visits a node before its children, in source order, and skips children on false", "statement": "Proto.Accept(v) calls the visitor for each statement in order; children of a node are visited after the node and only if its Visit method returned true; the sequence of calls is determined by the tree and the answers.", "quantifier": "every AST and every stateful visitor", "why_tests_cant": "Quantifies over visitors (functions) and trees.", "anchors": ["parser/visitor.go", "parser/visitee.go", "parser/proto.go:Accept", "parser/message.go:Accept", "parser/service.go:Accept"]}
{"id": "C27", "title": "Accept reaches every element of the tree", "statement": "With a visitor that always returns true every node, option and comment in the AST is visited.", "quantifier": "every AST", "why_tests_cant": "Existential witness of a missed child needed.", "anchors": ["parser/service.go:RPC.Accept", "parser/oneof.go:Oneof.Accept", "parser/extensions.go:Extensions.Accept"]}
{"id": "C28", "title": "Comment.Lines loses no text", "statement": "For a comment produced by the parser, IsCStyle tells whether it starts with /*, and Lines returns the comment body without its delimiters split at newlines: joining the lines with newlines gives the body back.", "quantifier": "every comment text", "why_tests_cant": "Universal over comment bodies.", "anchors": ["parser/comment.go:Comment.Lines,Comment.IsCStyle"]}
{"id": "C29", "title": "Syntax version", "statement": "When Parse succeeds, Syntax is absent or its ProtobufVersion is proto2 or proto3, Version() returns 2 or 3 accordingly, and ProtobufVersionQuote is the version in quotes.", "quantifier": "every accepted input", "why_tests_cant": "Universal over accepted inputs.", "anchors": ["parser/syntax.go:ParseSyntax,Version"]}
{"id": "C30", "title": "Well-formedness of the AST", "statement": "In every accepted file: field, message, enum, service, rpc names are identifiers; field and enum numbers are integer literals; a field has at most one of the labels repeated, required, optional; map key types are the allowed ones; a reserved statement has field names or ranges but not both; a group name starts with an upper case letter; a oneof has at least one field.", "quantifier": "every accepted input, every node", "why_tests_cant": "Universal over accepted inputs.", "anchors": ["parser/field.go", "parser/mapField.go", "parser/groupField.go", "parser/oneof.go", "parser/enum.go", "parser/message.go", "parser/service.go", "parser/reserved.go"]}
{"id": "C31", "title": "An I/O error of the reader is reported", "statement": "If the io.Reader passed to Parse fails before the end of the file, Parse returns an error rather than a Proto for the truncated text.", "quantifier": "every input and every read that may fail", "why_tests_cant": "Crash-point quantification: every position at which the reader can fail.", "anchors": ["lexer/scanner/scanner.go:read", "lexer/scanner/eof.go"]}
{"id": "C32", "title": "String constants are preserved", "statement": "The value of an option given by string literals contains exactly the characters of the literals in order.", "quantifier": "every string literal in every option", "why_tests_cant": "Universal over literal contents, in particular quotes at the ends.", "anchors": ["parser/option.go:parseOptionConstant", "lexer/constant.go:mergeMultilineStrLit"]}
{"id": "C33", "title": "A reserved statement keeps everything it lists", "statement": "Every range and every name listed in an accepted reserved statement appears in the Reserved node.", "quantifier": "every accepted input", "why_tests_cant": "One mixed statement is a counterexample; tests use homogeneous lists.", "anchors": ["parser/reserved.go:ParseReserved"]}
{"id": "C34", "title": "Embedded comments of an RPC", "statement": "RPC.EmbeddedComments is exactly the list of comments located strictly between the rpc keyword and the end of the rpc header, each once, in source order.", "quantifier": "every accepted input and RPC", "why_tests_cant": "The scanner records comments at every (re)scan; exactness depends on the whole backtracking history.", "anchors": ["parser/service.go:parseRPC", "parser/parser.go:findEmbeddedComments", "lexer/lexer.go:FindMidComments", "lexer/scanner/scanner.go:GetScannedComments"]}
{"id": "C35", "title": "Position of errors", "statement": "The position carried by the error that Parse returns is a position of the input: the offset does not exceed the length of the input.", "quantifier": "every rejected input", "why_tests_cant": "Universal over malformed inputs, which drive the recovery code.", "anchors": ["parser/error.go:unexpected", "lexer/error.go", "parser/meta/error.go", "lexer/lexer.go:UnNext"]}
{"id": "C36", "title": "Resource use of error recovery", "statement": "The work done and the size of the error returned by Parse are polynomial in the input length.", "quantifier": "every input", "why_tests_cant": "Asymptotic statement; the blow-up doubles per nesting level and is invisible on the shallow test inputs.", "anchors": ["parser/message.go:parseMessageBody", "parser/groupField.go:ParseGroupField", "lexer/scanner/scanner.go:UnScan"]}
{"id": "C37", "title": "NUL characters are not ignored", "statement": "A file containing NUL characters is rejected, or at least nothing after a NUL is ignored.", "quantifier": "every input with NUL", "why_tests_cant": "Needs NUL at a place where the scanner peeks.", "anchors": ["lexer/scanner/scanner.go:peek,read,isEOF", "lexer/scanner/eof.go"]}
{"id": "C38", "title": "Position.String identifies the position", "statement": "meta.Position.String is file name, ':', line, ':', column, with the file name replaced by <input> when it is empty; two positions print the same only if line, column and (up to that replacement) file name agree.", "quantifier": "every position", "why_tests_cant": "Injectivity over all positions.", "anchors": ["parser/meta/position.go:Position.String"]}
{"id": "C39", "title": "Option order and last-wins of ParseConfig", "statement": "Parse options are applied left to right: each setting has the value of the last option that sets it, else its default (permissive=true, others off).", "quantifier": "every list of options", "why_tests_cant": "Universal over option lists.", "anchors": ["protoparser.go:Parse,WithPermissive,WithFilename,WithBodyIncludingComments,WithDebug"]}
{"id": "C40", "title": "The un-read buffer is transparent", "statement": "The scanner's stack of un-read runes in front of the reader behaves as if the un-read runes had been put back in the input: reads return first the un-read runes, last un-read first, then the remaining input.", "quantifier": "every interleaving of reads and unreads", "why_tests_cant": "History-quantified refinement.", "anchors": ["lexer/scanner/scanner.go:read,unread,peek,isEOF"]}
{"id": "C41", "title": "BOM", "statement": "A byte order mark at the start of the input is skipped: the file is accepted with the same statements as without it; a byte order mark anywhere else between tokens is an error.", "quantifier": "every input", "why_tests_cant": "Universal over what follows the BOM.", "anchors": ["parser/proto.go:ParseProto", "parser/parser.go"]}
{"id": "C42", "title": "Bodies hold only statements that belong there", "statement": "In the result of every successful Parse, each message and group body holds only fields, map fields, groups, oneofs, enums, messages, extends, options, reserved, extensions and empty statements; each enum, service, extend and file body only the statements of its own production; comment nodes occur only if WithBodyIncludingComments was given, and at file level only behind the last statement.", "quantifier": "every input, every ParseConfig, every nesting depth", "why_tests_cant": "Quantifies over all reachable trees and all option combinations.", "anchors": ["parser/message.go:parseMessageBody", "parser/enum.go:parseEnumBody", "parser/service.go:parseServiceBody", "parser/extend.go:parseExtendBody", "parser/proto.go:parseProtoBody"]}
{"id": "C43", "title": "Errors show what stands in the source", "statement": "Whenever Parse rejects a text, each position in the error is a place of the source, and the text the error reports as found there stands in the source at that place, or directly behind the white space and comments that begin there.", "quantifier": "every rejected input, every file name", "why_tests_cant": "Universal over malformed inputs; needs the position, the un-read buffer and the last token to agree on every failure path.", "anchors": ["parser/error.go:unexpected", "lexer/error.go", "parser/meta/error.go", "lexer/lexer.go:UnNext", "lexer/lexer.go:Next"]}
{"id": "C44", "title": "Printing an AST and parsing it again gives the same AST", "statement": "Write the AST that Parse returned as text: the words of its statements in order, separated by blanks, without comments. Parse accepts this text with the same options, the new AST is the old one up to positions and comments, and writing the new AST gives the same text again.", "quantifier": "every accepted input, all options", "why_tests_cant": "Universal over accepted inputs and over what the AST fields can hold (joined strings, aggregate constants with embedded newlines, junk turned into empty statements); tests compare a few fixtures.", "anchors": ["parser/proto.go:ParseProto", "parser/message.go:ParseMessage", "parser/option.go", "lexer/constant.go:ReadConstant", "lexer/constant.go:mergeMultilineStrLit", "parser/syntax.go"]}
{"id": "C45", "title": "A node says what the text of its statement says", "statement": "For every node of a returned AST, the source text from Pos to LastPos, white space and comments aside, consists of exactly the words of the node: label, type, name, number, options with their values and the punctuation between them, in the order of the grammar. For nodes with a body this holds for the heading.", "quantifier": "every accepted input, all options, every node", "why_tests_cant": "Universal over accepted texts and all placements of comments and blanks; a dropped, swapped or invented token in any production would have to be covered by a fixture.", "anchors": ["parser/field.go", "parser/mapField.go", "parser/oneof.go", "parser/enum.go", "parser/option.go", "parser/service.go", "parser/import.go", "parser/package.go", "parser/extensions.go", "parser/reserved.go", "parser/groupField.go"]}
{"id": "C46", "title": "The message of an error determines where and what", "statement": "If the errors of two rejected inputs have the same message (Error()), they report the same file name, line, column and found text.", "quantifier": "all pairs of rejected inputs and options, all runes in the found text", "why_tests_cant": "Universal over pairs of errors and over the runes that quoting escapes; an ambiguous format shows only on a colliding pair.", "anchors": ["parser/meta/error.go:Error", "parser/meta/position.go:String", "parser/error.go", "lexer/error.go:unexpected", "parser/message.go:parseMessageBodyStatementErr"]}
{"id": "C47", "title": "An error of the scanner reaches the caller", "statement": "If the scanner reports an error (a string or comment without end, a bad escape) and Parse rejects the input, the error that Parse returns is or contains the error of the scanner.", "quantifier": "all inputs and options", "why_tests_cant": "The parser retries and backtracks over tokens; a lost error shows only on inputs in which each path to the token drops it.", "anchors": ["lexer/lexer.go:Next", "lexer/lexer.go:LatestErr", "lexer/scanner/error.go", "parser/proto.go"]}
{"id": "C48", "title": "Each exported Parse method reads exactly one statement", "statement": "Called by a program on a lexer of its own, in any order, each exported Parse method of parser.Parser (ParseSyntax, ParseEdition, ParseImport, ParsePackage, ParseOption, ParseField, ParseMapField, ParseOneof, ParseReserved, ParseDeclaration, ParseExtensions, ParseEnum, ParseExtend, ParseService, ParseMessage, ParseGroupField, ParseComments) that stands in front of a statement it is for answers with the node of that statement and leaves the lexer right behind it; whenever one answers with a node, the text it took from the lexer is a statement with this node; ParseSyntax and ParseEdition that answer nil take nothing.", "quantifier": "all inputs, all states of the lexer reached by any sequence of such calls, all options of the parser", "why_tests_cant": "Universal over texts and over sequences of calls; a method that reads a token too many, or leaves an un-read token or a comment behind, shows only in what the following call sees.", "anchors": ["parser/parser.go", "parser/message.go:ParseMessage", "parser/enum.go:ParseEnum", "parser/service.go:ParseService", "parser/comment.go:ParseComments", "parser/syntax.go:ParseSyntax", "lexer/lexer.go:UnNext"]}
{"id": "C49", "title": "Texts one behind the other", "statement": "Let two texts be accepted by Parse on their own, the second without byte order mark, syntax and edition statement. Then Parse accepts the first text, a newline and the second text put together. Syntax, edition and all statements of the first text come out exactly as they do without the second text, with the same fields, positions and comments; behind them come the statements of the second text with the same fields and comments and with all positions moved by the bytes and lines in front of them. Only the comments in front of the first statement of the second text may differ.", "quantifier": "all pairs of texts, all options", "why_tests_cant": "Universal over pairs of texts: state of the lexer or parser that leaks from one statement to the next (a look-ahead token, a mode, pending comments, a table of columns) shows only behind particular statements.", "anchors": ["parser/proto.go:parseProtoBody", "parser/parser.go", "lexer/lexer.go", "lexer/scanner/scanner.go", "lexer/scanner/position.go"]}
{"id": "C50", "title": "No comment is held twice", "statement": "No two comments held by the elements of an AST returned by Parse, wherever they are held (as leading, inline, embedded comments, behind an opening bracket, or as elements of a body), start at the same place of the text: every comment of the text is attached at most once.", "quantifier": "all inputs, all options", "why_tests_cant": "Universal over texts: a comment is read into a list that several callers may keep (a statement and the inline reader, an alternative tried and given up), so whether it is attached twice depends on what stands around it at every place where comments are allowed.", "anchors": ["parser/comment.go:ParseComments", "parser/inlineComment.go:MaybeScanInlineComment", "parser/proto.go:ParseProto", "parser/service.go:ParseService", "parser/message.go:parseMessageBody", "parser/extensions.go:parseDeclarations"]}
{"id": "C51", "title": "The AST is at most linear in the text", "statement": "The AST returned by Parse is at most linear in the text: the number of its elements plus the lengths of all strings in it (names, types, numbers, values, comments) is at most a constant times the length of the text.", "quantifier": "all inputs, all options", "why_tests_cant": "Universal over texts: un-reading and error recovery put text back into the buffer, and values and strings are put together from tokens, so growth shows only on particular, deeply nested texts.", "anchors": ["lexer/scanner/scanner.go:UnScan", "parser/message.go:parseMessageBody", "parser/option.go:parseOptionConstant", "lexer/constant.go:mergeMultilineStrLit", "parser/comment.go:ParseComments"]}
{"id": "C52", "title": "Un-reading puts back the text as it was read", "statement": "A text a program got as RawText from the lexer and passes to UnNextTo is put back into the read buffer as it was when it was handed out, whatever the lexer has read and un-read in between; and UnNext puts back the text read last.", "quantifier": "all histories of Next, UnNext and UnNextTo on one lexer, all texts, all capacities append may choose", "why_tests_cant": "The texts are slices whose arrays the scanner may write into; whether two slices share an array depends on the history of calls and on the capacities the runtime chooses.", "anchors": ["lexer/lexer.go:Next", "lexer/lexer.go:PeekN", "lexer/lexer.go:UnNextTo", "lexer/scanner/scanner.go:LastScanRaw", "lexer/scanner/scanner.go:SetLastScanRaw", "lexer/scanner/scanner.go:read", "parser/groupField.go:peekIsGroup"]}
{"id": "C53", "title": "Permissive mode finds what strict mode finds", "statement": "If Parse succeeds with permissive=false, then it succeeds with permissive=true and both ASTs say the same: the same syntax and edition, and the same statements in the same order with the same names, types, numbers, ranges, parameters and options, apart from positions, comments and empty statements.", "quantifier": "every input text, every other option", "why_tests_cant": "A relation between two runs on every input, down to every field of every node; the modes take different lookahead paths, join string literals and take semicolons at different places.", "anchors": ["protoparser.go:WithPermissive", "lexer/constant.go:mergeMultilineStrLit", "parser/option.go:parseOptionName", "parser/option.go:parseOptionConstant", "parser/message.go:parseMessageBody", "parser/proto.go:parseProtoBody"]}
{"id": "C54", "title": "White space in front of a text only moves it", "statement": "For a text without NUL on which Parse returns, Parse accepts the text with white space on lines of its own in front exactly if it accepts the text alone (and panics exactly if it panics), and the AST is the same, with every offset greater by the bytes of the white space, every line by its newlines, and the same columns. With any other white space in front the same holds, apart from the columns on the first line of the text. If Parse rejects the text, the error is the same with its positions moved likewise, or the very same error, whose only position is the start of the file.", "quantifier": "every white space (all of unicode.IsSpace), every text, every option", "why_tests_cant": "A relation between two runs on every pair of texts; the parser reads and un-reads the first token several times (for the byte order mark, comments, syntax, edition, end of file and the keyword), each time with the white space, and the columns are restored from a map shared by all positions.", "anchors": ["protoparser.go:Parse", "parser/proto.go:ParseProto", "parser/proto.go:parseBOM", "parser/comment.go:ParseComments", "parser/syntax.go:ParseSyntax", "parser/edition.go:ParseEdition", "lexer/scanner/scanner.go:Scan", "lexer/scanner/scanner.go:UnScan", "lexer/scanner/position.go:Advance", "lexer/scanner/position.go:Revert"]}
{"id": "C55", "title": "The scanner looks one character beyond what it takes", "statement": "What Scan returns (token, text, position, whether there is an error), the comments it records and how far it advances depend only on the text it takes and the one character behind it: on two texts without NUL that agree up to there it does the same, whatever follows. The same holds for Token, Text, RawText and Pos after Next of the lexer, and for every sequence of Scan calls in any modes and UnScan calls, not two in a row, that never takes more than a common beginning of two texts. One character is needed: with none the token may differ.", "quantifier": "every pair of texts with a common beginning, every mode, every history of calls", "why_tests_cant": "A relation between runs on all pairs of texts with a common beginning; the scanner peeks and un-reads in exponents, escapes and comments, and the text behind may be anything, an unclosed comment included.", "anchors": ["lexer/scanner/scanner.go:Scan", "lexer/scanner/scanner.go:UnScan", "lexer/scanner/scanner.go:peek", "lexer/scanner/numberLit.go:scanNumberLit", "lexer/scanner/strLit.go:scanStrLit", "lexer/scanner/comment.go:scanComment", "lexer/lexer.go:Next"]}
