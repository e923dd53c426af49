{"claims": [
 {"property": "C01", "status": "partial", "theorems": ["C01_refuted", "C01_loop_grows_refuted", "C01_partial", "C01_fuel_partial"], "note": "false of the code: one input on which no amount of fuel is enough; proved for every settled text without NUL (behind each heading of a group all comments are closed and the words extensions and reserved do not occur); C01_fuel_partial: once the fuel is enough the outcome does not depend on it"},
 {"property": "C02", "status": "partial", "theorems": ["C02_refuted", "C02_partial", "C02_class_refuted", "C02_chars_partial", "C02_methods_partial"], "note": "false of the code; the class of panicking texts is characterised from both sides for texts that are settled (all comments closed and no word extensions or reserved behind a heading of a group): a comment behind a top level semicolon on its line; for any text, groups and NUL included, a panic needs a semicolon and a slash; every exported method but ParseProto never panics; missing: the exact class for files with groups"},
 {"property": "C03", "status": "partial", "theorems": ["C03_partial", "C03_refuted"], "note": "false of the code for three productions (witnesses); proved for the documented grammar without them, every layout, permissive or not, with or without comment elements, AST with positions and comments"},
 {"property": "C04", "status": "partial", "theorems": ["C04_refuted", "C04_refuted_unbalanced", "C04_refuted_comment_as_code", "C04_partial"], "note": "false of the code; proved for texts that are settled (all comments closed and no word extensions or reserved behind a heading of a group) or without empty statements in messages with the deviations of Grammar.v (junk=true): the accepted text is a derivation that denotes the AST; the words dropped in front of a semicolon are a field, an enum field or a group that breaks off there"},
 {"property": "C05", "status": "partial", "theorems": ["C05_partial", "C05_roots_partial", "C05_refuted"], "note": "proved for every element with a Meta of every accepted text that is settled (all comments closed and no word extensions or reserved behind a heading of a group), without empty statements in messages or of the documented grammar; EmptyStatement nodes have no Meta; the full statement is false: a comment in front of a semicolon that is un-read twice gets a wrong column (witness C05_refuted); missing: the elements other than such comments in texts with groups that are not settled and have empty statements in messages"},
 {"property": "C06", "status": "proved", "theorems": ["C06_unscan_restores"], "note": "any state, any mode, NUL-free rest"},
 {"property": "C07", "status": "proved", "theorems": ["C07_token_is_source_text"], "note": "also for comments and the end of the file"},
 {"property": "C08", "status": "partial", "theorems": ["C08_position_of_consumed_text", "C08_balance", "C08_refuted_double_unscan"], "note": "proved for histories in which UnScan undoes a Scan; two UnScans in a row break it (witness), only the balance of bytes and lines survives"},
 {"property": "C09", "status": "partial", "theorems": ["C09_partial", "C09_refuted", "C09_refuted_hidden"], "note": "proved for every layout of every text of the documented grammar (permissive or not); false outside it and for comments behind a top level semicolon (witnesses)"},
 {"property": "C10", "status": "proved", "theorems": ["C10_identifier_maximal_munch"], "note": ""},
 {"property": "C11", "status": "partial", "theorems": ["C11_sound", "C11_complete_int", "C11_complete_float_partial", "C11_refuted"], "note": "completeness for floats is false of the code when the integral part has a leading zero (witness 01.5); proved for all others, and C11_sound shows that no such float is ever returned, so the accepted floats are characterised exactly"},
 {"property": "C12", "status": "proved", "theorems": ["C12_sound", "C12_complete"], "note": ""},
 {"property": "C13", "status": "proved", "theorems": ["C13_comment_token", "C13_comments_skipped", "C13_unterminated"], "note": ""},
 {"property": "C14", "status": "proved", "theorems": ["C14_keywords"], "note": ""},
 {"property": "C15", "status": "proved", "theorems": ["C15_peek", "C15_peekn"], "note": ""},
 {"property": "C16", "status": "proved", "theorems": ["C16_consume", "C16_told_apart"], "note": "Token tells the cases apart for every kind except TILLEGAL"},
 {"property": "C17", "status": "proved", "theorems": ["C17_decode_encode", "C17_offset", "C17_refuted_ill_formed"], "note": ""},
 {"property": "C18", "status": "partial", "theorems": ["C18_full_ident", "C18_full_ident_none", "C18_message_type", "C18_enum_type", "C18_message_type_none_partial", "C18_message_type_refuted", "C18_unique"], "note": "proved for every NUL-free rest; only at the end of the text a broken off message type (empty, or ending in a dot) is returned instead of an error (witness)"},
 {"property": "C19", "status": "partial", "theorems": ["C19_partial", "C19_file_partial", "C19_head_partial", "C19_oneof_partial", "C19_declaration_partial", "C19_rpc_refuted", "C19_refuted", "C19_shared_refuted"], "note": "false of the first statement of a file without syntax and edition (comments lost), of an edition behind a syntax (comments shared) and of options of an RPC (never any comments); proved for the other statements of files, bodies and oneofs and for declarations, for texts that are settled (all comments closed and no word extensions or reserved behind a heading of a group), without empty statements in messages or of the documented grammar"},
 {"property": "C20", "status": "proved", "theorems": ["C20"], "note": "any input, errors and panics included; the file's own body loses its trailing comment nodes too"},
 {"property": "C21", "status": "partial", "theorems": ["C21_partial", "C21_refuted"], "note": "the property is false of the code (witnesses); proved: which comments of a body the AST keeps, on readable accepted texts that are settled (all comments closed and no word extensions or reserved behind a heading of a group), without empty statements in messages or of the documented grammar"},
 {"property": "C22", "status": "proved", "theorems": ["C22", "C22_labels", "C22_errors"], "note": "any input, errors and panics included"},
 {"property": "C23", "status": "partial", "theorems": ["C23_partial", "C23_refuted"], "note": "proved for every text without NUL, whatever else is in it; with NUL characters it is false: C23_refuted"},
 {"property": "C24", "status": "proved", "theorems": ["C24_enum", "C24_extend", "C24_service", "C24_message", "C24_proto"], "note": "views list the statements of each kind in order; success exactly for bodies with allowed kinds"},
 {"property": "C25", "status": "partial", "theorems": ["C25_refuted", "C25_refuted_comments", "C25_partial", "C25_plain_partial"], "note": "the property is false of the code (witnesses); the exact class of accepted files on which UnorderedInterpret fails is proved"},
 {"property": "C26", "status": "proved", "theorems": ["C26_accept_is_preorder", "C26_calls", "C26_refuted_nil"], "note": ""},
 {"property": "C27", "status": "partial", "theorems": ["C27_refuted", "C27_partial"], "note": "the property is false of the code (witness); proved: the exact set of Visit calls of an always willing visitor on any parsed file without a top level empty statement"},
 {"property": "C28", "status": "proved", "theorems": ["C28", "C28_lines_block", "C28_lines_line", "C28_located_partial"], "note": "for every comment of every element of the AST of any accepted input; C28_located_partial adds where the comments are in the text (texts that are settled (all comments closed and no word extensions or reserved behind a heading of a group), without empty statements in messages or of the documented grammar)"},
 {"property": "C29", "status": "proved", "theorems": ["C29", "C29_quotes"], "note": "any accepted input; the two quotes are quote characters but need not be equal (C29_quotes)"},
 {"property": "C30", "status": "partial", "theorems": ["C30_refuted_oneof", "C30_partial", "C30_types_partial"], "note": "any accepted input; the part about oneof is false of the code (a field or an option is proved); C30_types_partial adds the form of type names for texts that are settled (all comments closed and no word extensions or reserved behind a heading of a group), without empty statements in messages or of the documented grammar"},
 {"property": "C31", "status": "partial", "theorems": ["C31_refuted"], "note": "the property is false of the code; witness"},
 {"property": "C32", "status": "partial", "theorems": ["C32_partial", "C32_refuted"], "note": "the property is false of the code for literals that end in a quote or mix quotes (witnesses); proved for all others, and for every constant without the permissive mode, on readable accepted texts that are settled (all comments closed and no word extensions or reserved behind a heading of a group), without empty statements in messages or of the documented grammar"},
 {"property": "C33", "status": "partial", "theorems": ["C33_partial", "C33_refuted"], "note": "the property is false of the code for names behind ranges (witness); proved for every other reserved statement of readable accepted texts that are settled (all comments closed and no word extensions or reserved behind a heading of a group), without empty statements in messages or of the documented grammar"},
 {"property": "C34", "status": "partial", "theorems": ["C34_partial"], "note": "proved for readable accepted texts that are settled (all comments closed and no word extensions or reserved behind a heading of a group), without empty statements in messages or of the documented grammar"},
 {"property": "C35", "status": "partial", "theorems": ["C35_partial", "C35_bytes_partial", "C35_inside_partial", "C35_refuted"], "note": "For every text (NUL characters and groups included) every position in the returned error is at most the end of the text, in offset and line; on bytes, at most the number of bytes of well-formed UTF-8. In permissive mode and without groups and NUL the offset is not negative either (C35_inside_partial). With nested groups the offset becomes negative (C35_refuted)."},
 {"property": "C36", "status": "partial", "theorems": ["C36_refuted", "C36_nested_refuted", "C36_partial", "C36_places_partial"], "note": "False of the code, in the strongest form: no polynomial in the length of the text bounds the size of the returned error (C36_refuted). C36_nested_refuted gives the family: d nested groups, 10*d+19 characters, and the error quotes an identifier of 2^d characters, because every enclosing body un-reads the text of the last token once more. Proved: at most quadratic on readable texts without the heading of a group in permissive mode; on any text the number of places reported is at most linear. The work done is not counted in the model."},
 {"property": "C37", "status": "partial", "theorems": ["C37_refuted"], "note": "the property is false of the code; witness"},
 {"property": "C38", "status": "proved", "theorems": ["C38_shape", "C38_injective"], "note": ""},
 {"property": "C39", "status": "proved", "theorems": ["C39_last_option_wins", "C39_last_wins_unique", "C39_only_settings_matter"], "note": ""},
 {"property": "C40", "status": "proved", "theorems": ["C40_unread_buffer_transparent", "C40_model_agrees"], "note": ""},
 {"property": "C41", "status": "partial", "theorems": ["C41_partial", "C41_refuted"], "note": "the first half is proved for every NUL-free text (columns of the first line are not compared); the second half is false of the code: witness"},
 {"property": "C42", "status": "proved", "theorems": ["C42"], "note": "kinds of statements in every body of an accepted file"},
 {"property": "C43", "status": "partial", "theorems": ["C43_partial", "C43_refuted", "C43_strict_refuted"], "note": "proved for the permissive mode on readable texts without the heading of a group; false with groups and false in strict mode (witnesses)"},
 {"property": "C44", "status": "partial", "theorems": ["C44_partial", "C44_refuted"], "note": "proved in strict mode, and in permissive mode for texts with quotes of one kind and no escaped quote before a closing one, for texts that are settled (all comments closed and no word extensions or reserved behind a heading of a group), without empty statements in messages or of the documented grammar, the version between equal quotes; false in permissive mode in general (witness: joined strings, the last one an escaped quote)"},
 {"property": "C45", "status": "partial", "theorems": ["C45_partial", "C45_heading_partial", "C45_import_partial", "C45_declaration_partial", "C45_refuted"], "note": "proved for every node except reserved names (C33); for permissive values up to quotes and newlines, and for values with lists also up to the token that closes a list; for imports without modifier one token that is not a modifier may stand in front of the location; a declaration has the values given last for its keys; for texts that are settled (all comments closed and no word extensions or reserved behind a heading of a group), without empty statements in messages or of the documented grammar; false for imports with a stray word and for lists with a wrong closing token (witnesses)"},
 {"property": "C46", "status": "partial", "theorems": ["C46_partial", "C46_found_partial", "C46_refuted"], "note": "proved when the first error in each was built by the parser; for errors built by the lexer the message determines the found text only: it has no place (witness); positions and texts are compared as Go prints them"},
 {"property": "C47", "status": "partial", "theorems": ["C47_refuted"], "note": "false of the code on every input: no error returned by Parse contains an error of the scanner (universal theorem, with a case in which the scanner has one)"},
 {"property": "C48", "status": "partial", "theorems": ["C48_partial", "C48_taken_partial", "C48_nil_partial"], "note": "reading: for statements of the language itself (without the productions the parser accepts beyond it); taking: for texts that are settled (all comments closed and no word extensions or reserved behind a heading of a group); all for readable texts (no NUL, no invalid runes)"},
 {"property": "C49", "status": "partial", "theorems": ["C49_partial", "C49_refuted"], "note": "proved for texts of the documented grammar; in permissive mode the second text does not begin with a semicolon, which would end the block in front of it (witness); missing: texts outside the documented grammar"},
 {"property": "C50", "status": "partial", "theorems": ["C50_partial", "C50_meaning", "C50_refuted"], "note": "false of an edition behind a syntax, which holds the comments in front of the syntax too (witness); proved for all other comments, for texts that are settled (all comments closed and no word extensions or reserved behind a heading of a group), without empty statements in messages or of the documented grammar"},
 {"property": "C51", "status": "partial", "theorems": ["C51_partial"], "note": "proved with constant 4, for texts that are settled (all comments closed and no word extensions or reserved behind a heading of a group), without empty statements in messages or of the documented grammar"},
 {"property": "C52", "status": "partial", "theorems": ["C52_partial", "C52_library_partial", "C52_refuted"], "note": "false of a text that is un-read again after the lexer has read on from it (witness); proved for all other histories and for the form of calls the library makes, for every growth of append"},
 {"property": "C53", "status": "partial", "theorems": ["C53_partial", "C53_refuted"], "note": "proved for every text without NUL, with string constants that end in an escaped quote compared without their last quote, which permissive mode loses; the full statement is false for such constants (C53_refuted) and for texts with NUL (C23_refuted)"},
 {"property": "C54", "status": "proved", "theorems": ["C54", "C54_indented", "C54_error_refuted"], "note": "texts without NUL on which Parse returns, as stated; that an error on the first token does not move is shown by C54_error_refuted"},
 {"property": "C55", "status": "proved", "theorems": ["C55", "C55_next", "C55_history", "C55_tight"], "note": "texts without NUL, as stated"}
]}
