(** Properties of the API around the parser: C24-C28, C38, C39. *)
From Coq Require Import List NArith ZArith Bool String Ascii.
From Verif Require Import Base Token Scanner Ast Parser Api Unordered Visitor Spec Direct Walk Refuted.
Import ListNotations.

(** C39: each setting has the value of the last option that sets it, else its
    default; [last_wins] fixes the value uniquely. *)
Theorem C39_last_option_wins : forall opts,
  last_wins sets_debug false opts (cfg_debug (config_of opts)) /\
  last_wins sets_permissive true opts (cfg_permissive (config_of opts)) /\
  last_wins sets_bic false opts (cfg_bodyIncludingComments (config_of opts)) /\
  last_wins sets_filename [] opts (cfg_filename (config_of opts)).
Proof. exact config_last_wins. Qed.
Print Assumptions C39_last_option_wins.
Theorem C39_last_wins_unique : forall A (sets : ParseOpt -> option A) d opts v w,
  last_wins sets d opts v -> last_wins sets d opts w -> v = w.
Proof. exact @last_wins_unique. Qed.
Print Assumptions C39_last_wins_unique.
(** the options matter only through these settings: equal settings, equal results *)
Theorem C39_only_settings_matter : forall opts opts' input,
  cfg_permissive (config_of opts) = cfg_permissive (config_of opts') ->
  cfg_bodyIncludingComments (config_of opts) = cfg_bodyIncludingComments (config_of opts') ->
  cfg_filename (config_of opts) = cfg_filename (config_of opts') ->
  Parse opts input = Parse opts' input.
Proof. exact parse_settings. Qed.
Print Assumptions C39_only_settings_matter.
Example C39_case :
  config_of [WithPermissive false; WithFilename (lit "a"); WithPermissive true; WithFilename (lit "b"); WithPermissive false]
  = mkConfig false false false (lit "b").
Proof. reflexivity. Qed.

(** C38 *)
Theorem C38_shape : forall p,
  PosString p = (match Filename p with [] => lit "<input>" | f => f end)
                ++ lit ":" ++ fmt_d (Line p) ++ lit ":" ++ fmt_d (Column p).
Proof. reflexivity. Qed.
Print Assumptions C38_shape.
Theorem C38_injective : forall p q,
  PosString p = PosString q <->
  shown_name p = shown_name q /\ Line p = Line q /\ Column p = Column q.
Proof. exact PosString_inj. Qed.
Print Assumptions C38_injective.
Example C38_case : PosString (mkPos (lit "a:1.proto") 17 12 3) = lit "a:1.proto:12:3" /\
  PosString (mkPos [] 17 12 3) = lit "<input>:12:3".
Proof. split; reflexivity. Qed.

(** C28, for the two forms of comment text (that the parser produces no other is
    the content of C13). *)
Theorem C28_lines_block : forall body m,
  let c := mkComment (lit "/*" ++ body ++ lit "*/") m in
  IsCStyle c = true /\ unlines (Lines c) = body /\ Forall (fun l => ~ In NL l) (Lines c).
Proof. exact Lines_c. Qed.
Print Assumptions C28_lines_block.
Theorem C28_lines_line : forall body m,
  ~ In NL body ->
  let c := mkComment (lit "//" ++ body) m in IsCStyle c = false /\ Lines c = [body].
Proof. exact Lines_line. Qed.
Print Assumptions C28_lines_line.
Example C28_case : Lines (mkComment (lit "/* a" ++ [NL] ++ lit "b*/") (mkMeta zero_pos zero_pos)) = [lit " a"; lit "b"].
Proof. reflexivity. Qed.

(** C24: [message_view], [enum_view], ... relate a body to the lists of its
    statements by kind, in order. *)
Theorem C24_enum : forall b,
  if forallb enum_ok (b_body b) then exists r, InterpretEnum b = Some r /\ enum_view b r
  else InterpretEnum b = None.
Proof. exact InterpretEnum_spec. Qed.
Print Assumptions C24_enum.
Theorem C24_extend : forall b,
  if forallb extend_ok (b_body b) then exists r, InterpretExtend b = Some r /\ extend_view b r
  else InterpretExtend b = None.
Proof. exact InterpretExtend_spec. Qed.
Print Assumptions C24_extend.
Theorem C24_service : forall b,
  if forallb service_ok (b_body b) then exists r, InterpretService b = Some r /\ service_view b r
  else InterpretService b = None.
Proof. exact InterpretService_spec. Qed.
Print Assumptions C24_service.
Theorem C24_message : forall b,
  match InterpretMessage b with
  | Some r => message_ok b /\ message_view b r
  | None => ~ message_ok b
  end.
Proof. exact InterpretMessage_spec. Qed.
Print Assumptions C24_message.
Theorem C24_proto : forall p,
  match InterpretProto p with
  | Some r => Forall pstmt_ok (p_body p) /\ proto_view p r
  | None => ~ Forall pstmt_ok (p_body p)
  end.
Proof. exact InterpretProto_spec. Qed.
Print Assumptions C24_proto.
Example C24_case : exists p r,
  Parse [] (lit "package a; message M { int32 b = 1; enum E { X = 0; } message N { int32 c = 2; } } option o = 1;") = Ok p /\
  InterpretProto p = Some r /\
  map um_fields (map umsg_body (up_messages (upr_body r))) <> [] /\
  List.length (up_options (upr_body r)) = 1%nat.
Proof. eexists. eexists. vm_compute. repeat split; discriminate. Qed.

(** C25: false, also without comments in bodies. *)
Theorem C25_refuted : exists input p,
  Parse [] input = Ok p /\ UnorderedInterpret p = None.
Proof. exact unordered_fails_example. Qed.
Print Assumptions C25_refuted.
Theorem C25_refuted_comments : exists input p,
  Parse [WithBodyIncludingComments true] input = Ok p /\ UnorderedInterpret p = None.
Proof. exact unordered_fails_comments_example. Qed.
Print Assumptions C25_refuted_comments.

(** C26: Accept is the pre-order walk of the forest [proto_forest p], for every
    visitor (any state type, any answers). *)
Theorem C26_accept_is_preorder : forall S (visit : node -> S -> bool * S) p s,
  accept_proto S visit p s = pre_all S visit (proto_forest p) s.
Proof. exact accept_proto_forest. Qed.
Print Assumptions C26_accept_is_preorder.
(** For a visitor that records the calls and answers by [ans]: the calls are the
    nodes in pre-order, the subtrees of nodes answered false left out; there is
    no panic when there is no nil element. *)
Theorem C26_calls : forall ans p,
  forallb nostop (proto_forest p) = true -> forall s,
  accept_proto _ (logger ans) p s = (s ++ flat_map (nodes_if ans) (proto_forest p), false).
Proof. exact log_proto. Qed.
Print Assumptions C26_calls.
Example C26_case : exists p,
  Parse [] (lit "message M { int32 b = 1; } enum E { A = 0; B = 1; }") = Ok p /\
  forallb nostop (proto_forest p) = true /\
  List.length (flat_map (nodes_if (fun _ => true)) (proto_forest p)) = 5%nat /\
  List.length (flat_map (nodes_if (fun n => match n with NVisitee (VEnum _) => false | _ => true end)) (proto_forest p)) = 3%nat.
Proof. eexists. vm_compute. repeat split. Qed.
(** nil elements do occur *)
Theorem C26_refuted_nil : exists input p,
  Parse [] input = Ok p /\
  accept_proto (list node) (logger (fun _ => true)) p [] = ([NVisitee (VEmpty (mkEmpty None))], true).
Proof. exact accept_panic_example. Qed.
Print Assumptions C26_refuted_nil.

(** C27: false. *)
Theorem C27_refuted : exists input p o,
  Parse [] input = Ok p /\
  In o (flat_map (fun v => match v with
                  | VService b => flat_map (fun w => match w with VRPC r => r_options r | _ => [] end) (b_body b)
                  | _ => [] end) (p_body p)) /\
  ~ In (NVisitee (VOption o)) (fst (accept_proto (list node) (logger (fun _ => true)) p [])).
Proof. exact unvisited_example. Qed.
Print Assumptions C27_refuted.
