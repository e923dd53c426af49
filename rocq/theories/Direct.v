(** Proofs about the small observers: parse options (C39), Position.String
    (C38), Comment.Lines (C28), the unordered interpreter (C24) and Accept (C26).
    The specification of each property stands in front of its lemmas. *)
From Coq Require Import List NArith ZArith Bool String Ascii Lia DecimalString DecimalZ.
From Verif Require Import Base Token Scanner Lexer Ast Parser Api Unordered Visitor.
Import ListNotations.

(** ** C39: last option wins *)

(** the value an option gives to a setting *)
Definition sets_debug (o : ParseOpt) : option bool := match o with WithDebug b => Some b | _ => None end.
Definition sets_permissive (o : ParseOpt) : option bool := match o with WithPermissive b => Some b | _ => None end.
Definition sets_bic (o : ParseOpt) : option bool := match o with WithBodyIncludingComments b => Some b | _ => None end.
Definition sets_filename (o : ParseOpt) : option str := match o with WithFilename b => Some b | _ => None end.

(** [v] is the value of a setting after the options [opts], default [d] *)
Definition last_wins {A} (sets : ParseOpt -> option A) (d : A) (opts : list ParseOpt) (v : A) : Prop :=
  (Forall (fun o => sets o = None) opts /\ v = d) \/
  (exists pre o post, opts = pre ++ o :: post /\ sets o = Some v /\ Forall (fun o => sets o = None) post).

Lemma last_wins_fold {A} (sets : ParseOpt -> option A) (get : ParseConfig -> A) opts c :
  (forall c o, get (apply_opt c o) = match sets o with Some v => v | None => get c end) ->
  last_wins sets (get c) opts (get (fold_left apply_opt opts c)).
Proof.
  intros H. revert c. induction opts as [|o opts IH] using rev_ind; intros c.
  - left. split; [constructor | reflexivity].
  - rewrite fold_left_app. cbn [fold_left]. rewrite H.
    destruct (sets o) as [v|] eqn:E.
    + right. exists opts, o, []. auto.
    + destruct (IH c) as [[F V] | (pre & x & post & P1 & P2 & P3)].
      * left. split; [apply Forall_app; auto | exact V].
      * right. exists pre, x, (post ++ [o]). subst opts.
        rewrite <- app_assoc. split; [reflexivity|]. split; [exact P2 | apply Forall_app; auto].
Qed.

Lemma config_last_wins opts :
  last_wins sets_debug false opts (cfg_debug (config_of opts)) /\
  last_wins sets_permissive true opts (cfg_permissive (config_of opts)) /\
  last_wins sets_bic false opts (cfg_bodyIncludingComments (config_of opts)) /\
  last_wins sets_filename [] opts (cfg_filename (config_of opts)).
Proof.
  unfold config_of. set (c0 := mkConfig false true false []).
  repeat split.
  - apply (last_wins_fold sets_debug cfg_debug opts c0). intros c [ | | | ]; reflexivity.
  - apply (last_wins_fold sets_permissive cfg_permissive opts c0). intros c [ | | | ]; reflexivity.
  - apply (last_wins_fold sets_bic cfg_bodyIncludingComments opts c0). intros c [ | | | ]; reflexivity.
  - apply (last_wins_fold sets_filename cfg_filename opts c0). intros c [ | | | ]; reflexivity.
Qed.

(** [last_wins] determines the value. *)
Lemma last_wins_unique {A} (sets : ParseOpt -> option A) d opts v w :
  last_wins sets d opts v -> last_wins sets d opts w -> v = w.
Proof.
  revert v w. induction opts as [|o opts IH] using rev_ind; intros v w Hv Hw.
  - destruct Hv as [[_ ->] | (p & x & q & E & _)]; [| destruct p; discriminate].
    destruct Hw as [[_ ->] | (p & x & q & E & _)]; [| destruct p; discriminate]. reflexivity.
  - assert (step : forall u, last_wins sets d (opts ++ [o]) u ->
              (sets o = Some u) \/ (sets o = None /\ last_wins sets d opts u)).
    { intros u [[F ->] | (p & x & q & E & S & F)].
      - apply Forall_app in F. destruct F as [F G]. inversion G. right. split; auto. left; auto.
      - destruct q as [|y q] using rev_ind.
        + apply app_inj_tail in E. destruct E as [_ <-]. auto.
        + clear IHq. change (p ++ x :: q ++ [y]) with (p ++ (x :: q) ++ [y]) in E.
          rewrite app_assoc in E. apply app_inj_tail in E. destruct E as [-> <-].
          apply Forall_app in F. destruct F as [F G]. inversion G. right. split; auto.
          right. exists p, x, q. auto. }
    destruct (step _ Hv) as [E1 | [E1 H1]], (step _ Hw) as [E2 | [E2 H2]]; try congruence.
    apply IH; assumption.
Qed.

(** ** C38: Position.String *)

Definition shown_name (p : mpos) : str := match Filename p with [] => lit "<input>" | f => f end.

Lemma lit_inj a : forall b, lit a = lit b -> a = b.
Proof.
  induction a as [|x a IH]; destruct b as [|y b]; cbn; intros H; try discriminate; auto.
  injection H as E1 E2. f_equal; auto.
  rewrite <- (ascii_N_embedding x), <- (ascii_N_embedding y). congruence.
Qed.

Lemma to_int_notnil z : Z.to_int z <> Decimal.Pos Decimal.Nil /\ Z.to_int z <> Decimal.Neg Decimal.Nil.
Proof.
  split; intros E; assert (F := DecimalZ.of_to z); rewrite E in F;
    change (Z.of_int (Decimal.Pos Decimal.Nil)) with 0%Z in F; change (Z.of_int (Decimal.Neg Decimal.Nil)) with 0%Z in F;
    subst z; discriminate.
Qed.

Lemma fmt_d_inj x y : fmt_d x = fmt_d y -> x = y.
Proof.
  unfold fmt_d. intros H. apply lit_inj in H.
  destruct (to_int_notnil x) as [a b], (to_int_notnil y) as [c d].
  assert (E : Some (Z.to_int x) = Some (Z.to_int y)).
  { rewrite <- (NilZero.isi _ a b), <- (NilZero.isi _ c d). congruence. }
  injection E as E. rewrite <- (DecimalZ.of_to x), <- (DecimalZ.of_to y). congruence.
Qed.

Definition COLON : rune := ch ":".
Lemma string_of_uint_nocolon u : ~ In COLON (lit (NilEmpty.string_of_uint u)).
Proof. induction u; cbn; intros H; [exact H|destruct H as [H|H]; [discriminate|auto] ..]. Qed.
Lemma fmt_d_nocolon z : ~ In COLON (fmt_d z).
Proof.
  unfold fmt_d. destruct (Z.to_int z) as [u|u]; cbn.
  - destruct u; try apply (string_of_uint_nocolon (_ _)). cbn. intros [H|[]]; discriminate.
  - intros [H|H]; [discriminate|]. revert H.
    destruct u; try apply (string_of_uint_nocolon (_ _)). cbn. intros [H|[]]; discriminate.
Qed.

(** the part behind the last colon *)
Lemma last_colon a b a' b' :
  ~ In COLON b -> ~ In COLON b' -> a ++ COLON :: b = a' ++ COLON :: b' -> a = a' /\ b = b'.
Proof.
  intros Hb Hb' E.
  assert (R : rev b ++ COLON :: rev a = rev b' ++ COLON :: rev a').
  { apply (f_equal (@rev rune)) in E. rewrite !rev_app_distr in E. cbn in E.
    rewrite <- !app_assoc in E. exact E. }
  assert (L : forall x y u v, ~ In COLON x -> ~ In COLON y ->
            x ++ COLON :: u = y ++ COLON :: v -> x = y /\ u = v).
  { clear. induction x as [|c x IH]; destruct y as [|d y]; cbn; intros u v Hx Hy E.
    - injection E; auto.
    - injection E as <- _. exfalso; auto.
    - injection E as -> _. exfalso; auto.
    - injection E as -> E. destruct (IH y u v) as [-> ->]; auto. }
  destruct (L _ _ _ _ (fun h => Hb (proj2 (in_rev _ _) h)) (fun h => Hb' (proj2 (in_rev _ _) h)) R) as [E1 E2].
  split.
  - rewrite <- (rev_involutive a), <- (rev_involutive a'). congruence.
  - rewrite <- (rev_involutive b), <- (rev_involutive b'). congruence.
Qed.

Lemma PosString_shape p : PosString p = (shown_name p ++ COLON :: fmt_d (Line p)) ++ COLON :: fmt_d (Column p).
Proof. unfold PosString, shown_name. rewrite <- app_assoc. reflexivity. Qed.

Lemma PosString_inj p q :
  PosString p = PosString q <-> shown_name p = shown_name q /\ Line p = Line q /\ Column p = Column q.
Proof.
  rewrite !PosString_shape. split.
  - intros E. apply last_colon in E; auto using fmt_d_nocolon. destruct E as [E E3].
    apply last_colon in E; auto using fmt_d_nocolon. destruct E as [E1 E2].
    auto using fmt_d_inj.
  - intros (-> & -> & ->). reflexivity.
Qed.

(** ** C28: Comment.Lines *)

(** lines joined by newlines *)
Definition unlines (l : list str) : str := join [NL] l.

Lemma split_nl_nonempty cur s : split_nl cur s <> [].
Proof. revert cur. induction s as [|c s IH]; intros cur; cbn; [|destruct (c =? NL)%N]; congruence || auto. Qed.
Lemma join_cons sep x l : l <> [] -> join sep (x :: l) = x ++ sep ++ join sep l.
Proof. destruct l; [congruence | reflexivity]. Qed.
Lemma unlines_split cur s : unlines (split_nl cur s) = cur ++ s.
Proof.
  revert cur. induction s as [|c s IH]; intros cur; cbn.
  - rewrite app_nil_r. reflexivity.
  - destruct (N.eqb_spec c NL) as [->|n].
    + unfold unlines. rewrite join_cons by apply split_nl_nonempty. f_equal. cbn. f_equal. apply IH.
    + rewrite IH, <- app_assoc. reflexivity.
Qed.
Lemma split_no_nl cur s : ~ In NL cur -> Forall (fun l => ~ In NL l) (split_nl cur s).
Proof.
  revert cur. induction s as [|c s IH]; intros cur H; cbn.
  - constructor; auto.
  - destruct (N.eqb_spec c NL) as [->|n]; [constructor; auto|].
    apply IH. intros F. apply in_app_or in F. destruct F as [F|[F|[]]]; auto.
Qed.

Lemma strip_prefix_app p s : strip_prefix p (p ++ s) = Some s.
Proof. induction p as [|a p IH]; cbn; auto. rewrite N.eqb_refl. exact IH. Qed.

Lemma Lines_c b m :
  let c := mkComment (lit "/*" ++ b ++ lit "*/") m in
  IsCStyle c = true /\ unlines (Lines c) = b /\ Forall (fun l => ~ In NL l) (Lines c).
Proof.
  intros c.
  assert (H : IsCStyle c = true) by reflexivity.
  assert (T : Lines c = split_nl [] b).
  { unfold Lines. rewrite H. f_equal. unfold c, TrimPrefix, TrimSuffix. cbn [c_raw].
    rewrite strip_prefix_app, rev_app_distr, strip_prefix_app. apply rev_involutive. }
  rewrite T. repeat split; auto.
  - apply unlines_split.
  - apply split_no_nl. auto.
Qed.
Lemma Lines_line b m :
  ~ In NL b ->
  let c := mkComment (lit "//" ++ b) m in IsCStyle c = false /\ Lines c = [b].
Proof.
  intros H c. split; [reflexivity|].
  change (split_nl [] b = [b]).
  assert (G : forall cur, split_nl cur b = [cur ++ b]).
  { induction b as [|x b IH]; intros cur; cbn; [rewrite app_nil_r; reflexivity|].
    destruct (N.eqb_spec x NL) as [->|n]; [exfalso; apply H; left; reflexivity|].
    rewrite IH; [rewrite <- app_assoc; reflexivity|]. intros F. apply H. right; exact F. }
  apply G.
Qed.

(** ** C24: the unordered interpreter *)

(** the statements of a kind, in order *)
Fixpoint pick {A B} (f : A -> option B) (l : list A) : list B :=
  match l with
  | [] => []
  | x :: l' => match f x with Some y => y :: pick f l' | None => pick f l' end
  end.
Lemma pick_app {A B} (f : A -> option B) a b : pick f (a ++ b) = pick f a ++ pick f b.
Proof. induction a as [|x a IH]; cbn; auto. destruct (f x); cbn; congruence. Qed.

Definition as_option v := match v with VOption x => Some x | _ => None end.
Definition as_enumField v := match v with VEnumField x => Some x | _ => None end.
Definition as_reserved v := match v with VReserved x => Some x | _ => None end.
Definition as_empty v := match v with VEmpty x => Some x | _ => None end.
Definition as_field v := match v with VField x => Some x | _ => None end.
Definition as_rpc v := match v with VRPC x => Some x | _ => None end.
Definition as_enum v := match v with VEnum x => Some x | _ => None end.
Definition as_message v := match v with VMessage x => Some x | _ => None end.
Definition as_service v := match v with VService x => Some x | _ => None end.
Definition as_extend v := match v with VExtend x => Some x | _ => None end.
Definition as_oneof v := match v with VOneof x => Some x | _ => None end.
Definition as_map v := match v with VMapField x => Some x | _ => None end.
Definition as_group v := match v with VGroupField x => Some x | _ => None end.
Definition as_extensions v := match v with VExtensions x => Some x | _ => None end.
Definition as_import v := match v with VImport x => Some x | _ => None end.
Definition as_package v := match v with VPackage x => Some x | _ => None end.

Definition enum_ok v := match v with VOption _ | VEnumField _ | VReserved _ | VEmpty _ => true | _ => false end.
Definition extend_ok v := match v with VField _ | VEmpty _ => true | _ => false end.
Definition service_ok v := match v with VOption _ | VRPC _ => true | _ => false end.

(** what the interpretation of an enum, extend, service contains *)
Definition enum_view (b : block) (r : uEnum) : Prop :=
  ue_head r = mkUHead (b_name b) (b_comments b) (b_inline b) (b_inlineLC b) (b_meta b) /\
  ueb_options (ue_body r) = pick as_option (b_body b) /\
  ueb_fields (ue_body r) = pick as_enumField (b_body b) /\
  ueb_reserveds (ue_body r) = pick as_reserved (b_body b) /\
  ueb_empties (ue_body r) = pick as_empty (b_body b).
Definition extend_view (b : block) (r : uExtend) : Prop :=
  ux_head r = mkUHead (b_name b) (b_comments b) (b_inline b) (b_inlineLC b) (b_meta b) /\
  uxb_fields (ux_body r) = pick as_field (b_body b) /\
  uxb_empties (ux_body r) = pick as_empty (b_body b).
Definition service_view (b : block) (r : uService) : Prop :=
  us_head r = mkUHead (b_name b) (b_comments b) (b_inline b) (b_inlineLC b) (b_meta b) /\
  usb_options (us_body r) = pick as_option (b_body b) /\
  usb_rpcs (us_body r) = pick as_rpc (b_body b).

Lemma enumBody_spec src : forall a,
  interpretEnumBody src a =
  if forallb enum_ok src then
    Some (mkUEnumBody (ueb_options a ++ pick as_option src) (ueb_fields a ++ pick as_enumField src)
                      (ueb_reserveds a ++ pick as_reserved src) (ueb_empties a ++ pick as_empty src))
  else None.
Proof.
  induction src as [|s src IH]; intros a.
  - destruct a; cbn. rewrite !app_nil_r. reflexivity.
  - destruct s; cbn; try reflexivity; rewrite IH; cbn; rewrite <- ?app_assoc; reflexivity.
Qed.
Lemma extendBody_spec src : forall a,
  interpretExtendBody src a =
  if forallb extend_ok src then
    Some (mkUExtendBody (uxb_fields a ++ pick as_field src) (uxb_empties a ++ pick as_empty src))
  else None.
Proof.
  induction src as [|s src IH]; intros a.
  - destruct a; cbn. rewrite !app_nil_r. reflexivity.
  - destruct s; cbn; try reflexivity; rewrite IH; cbn; rewrite <- ?app_assoc; reflexivity.
Qed.
Lemma serviceBody_spec src : forall a,
  interpretServiceBody src a =
  if forallb service_ok src then
    Some (mkUServiceBody (usb_options a ++ pick as_option src) (usb_rpcs a ++ pick as_rpc src))
  else None.
Proof.
  induction src as [|s src IH]; intros a.
  - destruct a; cbn. rewrite !app_nil_r. reflexivity.
  - destruct s; cbn; try reflexivity; rewrite IH; cbn; rewrite <- ?app_assoc; reflexivity.
Qed.

Lemma InterpretEnum_spec b :
  if forallb enum_ok (b_body b) then exists r, InterpretEnum b = Some r /\ enum_view b r
  else InterpretEnum b = None.
Proof.
  unfold InterpretEnum. rewrite enumBody_spec. destruct (forallb enum_ok (b_body b)); auto.
  eexists. split; [reflexivity|]. repeat split.
Qed.
Lemma InterpretExtend_spec b :
  if forallb extend_ok (b_body b) then exists r, InterpretExtend b = Some r /\ extend_view b r
  else InterpretExtend b = None.
Proof.
  unfold InterpretExtend. rewrite extendBody_spec. destruct (forallb extend_ok (b_body b)); auto.
  eexists. split; [reflexivity|]. repeat split.
Qed.
Lemma InterpretService_spec b :
  if forallb service_ok (b_body b) then exists r, InterpretService b = Some r /\ service_view b r
  else InterpretService b = None.
Proof.
  unfold InterpretService. rewrite serviceBody_spec. destruct (forallb service_ok (b_body b)); auto.
  eexists. split; [reflexivity|]. repeat split.
Qed.

(** Messages nest: the view of a message relates its nested messages and enums
    to theirs. *)
Inductive message_view : block -> uMessage -> Prop :=
| MView : forall b r,
    umsg_head r = mkUHead (b_name b) (b_comments b) (b_inline b) (b_inlineLC b) (b_meta b) ->
    um_fields (umsg_body r) = pick as_field (b_body b) ->
    Forall2 enum_view (pick as_enum (b_body b)) (um_enums (umsg_body r)) ->
    Forall2 message_view (pick as_message (b_body b)) (um_messages (umsg_body r)) ->
    um_options (umsg_body r) = pick as_option (b_body b) ->
    um_oneofs (umsg_body r) = pick as_oneof (b_body b) ->
    um_maps (umsg_body r) = pick as_map (b_body b) ->
    um_groups (umsg_body r) = pick as_group (b_body b) ->
    um_reserves (umsg_body r) = pick as_reserved (b_body b) ->
    um_extends (umsg_body r) = pick as_extend (b_body b) ->
    um_empties (umsg_body r) = pick as_empty (b_body b) ->
    um_extensions (umsg_body r) = pick as_extensions (b_body b) ->
    message_view b r.

(** statements a message body may hold, to any depth *)
Inductive message_ok : block -> Prop :=
| MOk : forall b, Forall mstmt_ok (b_body b) -> message_ok b
with mstmt_ok : visitee -> Prop :=
| SOkField x : mstmt_ok (VField x)
| SOkEnum x : forallb enum_ok (b_body x) = true -> mstmt_ok (VEnum x)
| SOkMessage x : message_ok x -> mstmt_ok (VMessage x)
| SOkOption x : mstmt_ok (VOption x)
| SOkOneof x : mstmt_ok (VOneof x)
| SOkMap x : mstmt_ok (VMapField x)
| SOkGroup x : mstmt_ok (VGroupField x)
| SOkReserved x : mstmt_ok (VReserved x)
| SOkExtend x : mstmt_ok (VExtend x)
| SOkEmpty x : mstmt_ok (VEmpty x)
| SOkExtensions x : mstmt_ok (VExtensions x).

(** Induction on the nesting of statements. *)
Definition body_of (v : visitee) : list visitee :=
  match v with
  | VGroupField g => g_body g
  | VMessage b | VEnum b | VService b | VExtend b => b_body b
  | _ => []
  end.
Definition visitee_nested (P : visitee -> Prop) (step : forall v, Forall P (body_of v) -> P v) : forall v, P v :=
  fix go (v : visitee) : P v :=
    step v
      (let all := fix all (l : list visitee) : Forall P l :=
         match l with
         | [] => Forall_nil P
         | x :: l' => Forall_cons x (go x) (all l')
         end in
       match v return Forall P (body_of v) with
       | VGroupField g => all (g_body g)
       | VMessage b => all (b_body b)
       | VEnum b => all (b_body b)
       | VService b => all (b_body b)
       | VExtend b => all (b_body b)
       | _ => Forall_nil P
       end).

Definition msg_spec (v : visitee) : Prop :=
  match v with
  | VMessage b =>
    match InterpretMessage b with
    | Some r => message_ok b /\ message_view b r
    | None => ~ message_ok b
    end
  | _ => True
  end.

Lemma Forall2_snoc {A B} (R : A -> B -> Prop) l l' x y :
  Forall2 R l l' -> R x y -> Forall2 R (l ++ [x]) (l' ++ [y]).
Proof. intros H K. apply Forall2_app; auto. Qed.


(** [r] is [a] extended with the statements of [src] *)
Definition extends (a : uMessageBody) (src : list visitee) (r : uMessageBody) : Prop :=
  um_fields r = um_fields a ++ pick as_field src /\
  (exists es, um_enums r = um_enums a ++ es /\ Forall2 enum_view (pick as_enum src) es) /\
  (exists ms, um_messages r = um_messages a ++ ms /\ Forall2 message_view (pick as_message src) ms) /\
  um_options r = um_options a ++ pick as_option src /\
  um_oneofs r = um_oneofs a ++ pick as_oneof src /\
  um_maps r = um_maps a ++ pick as_map src /\
  um_groups r = um_groups a ++ pick as_group src /\
  um_reserves r = um_reserves a ++ pick as_reserved src /\
  um_extends r = um_extends a ++ pick as_extend src /\
  um_empties r = um_empties a ++ pick as_empty src /\
  um_extensions r = um_extensions a ++ pick as_extensions src.

Lemma InterpretMessage_all v : msg_spec v.
Proof.
  induction v as [v IH] using visitee_nested.
  destruct v as [| | | | | | | | | | | | | |b| | |]; try exact I.
  cbn [body_of] in IH. cbn [msg_spec]. unfold InterpretMessage. cbn [interpretMessageNode].
  match goal with |- context[?f (b_body b) emptyUMessageBody] => set (F := f) end.
  assert (Main : forall src, Forall msg_spec src -> forall a,
            match F src a with
            | Some r => Forall mstmt_ok src /\ extends a src r
            | None => ~ Forall mstmt_ok src
            end).
  { clear. induction src as [|s src IHs]; intros FA a.
    - cbn. split; [constructor|]. unfold extends. rewrite !app_nil_r.
      repeat split; try (exists []; rewrite app_nil_r; split; [reflexivity|constructor]).
    - inversion FA as [|? ? Hs FA']; subst. specialize (IHs FA').
      assert (skipcase : forall a', mstmt_ok s ->
                (forall r, extends a' src r -> extends a (s :: src) r) ->
                match F src a' with
                | Some r => Forall mstmt_ok (s :: src) /\ extends a (s :: src) r
                | None => ~ Forall mstmt_ok (s :: src)
                end).
      { intros a' Hok Hext. specialize (IHs a'). destruct (F src a').
        - destruct IHs as [H1 H2]. split; [constructor; auto | auto].
        - intros H. inversion H; auto. }
      destruct s;
        try (cbn; intros H; inversion H as [|? ? H0 ?]; inversion H0; fail);
        try (cbn; fold F; apply skipcase; [constructor|]; intros rr (E1 & E2 & E3 & E4 & E5 & E6 & E7 & E8 & E9 & E10 & E11);
             unfold extends; cbn in *; rewrite <- ?app_assoc in *; cbn in *; repeat split; auto; fail).
      + (* message *)
        cbn [msg_spec] in Hs. unfold InterpretMessage in Hs.
        change (F (VMessage m :: src) a) with
          (match interpretMessageNode (VMessage m) with
           | None => None
           | Some e => F src (mkUMessageBody (um_fields a) (um_enums a) (um_messages a ++ [e]) (um_options a) (um_oneofs a) (um_maps a) (um_groups a) (um_reserves a) (um_extends a) (um_empties a) (um_extensions a))
           end).
        destruct (interpretMessageNode (VMessage m)) as [e|].
        * destruct Hs as [H1 H2]. apply skipcase; [constructor; exact H1|].
          intros rr (E1 & E2 & (ms & E3 & E3') & E4 & E5 & E6 & E7 & E8 & E9 & E10 & E11).
          unfold extends; cbn in *; rewrite <- ?app_assoc in *; cbn in *; repeat split; auto.
          exists (e :: ms). split; [exact E3 | constructor; auto].
        * intros H. inversion H as [|? ? H0 ?]; inversion H0; subst; auto.
      + (* enum *)
        cbn; fold F. assert (X := InterpretEnum_spec e).
        destruct (forallb enum_ok (b_body e)) eqn:OK.
        * destruct X as (r0 & -> & V). apply skipcase; [constructor; exact OK|].
          intros rr (E1 & (es & E2 & E2') & E3 & E4 & E5 & E6 & E7 & E8 & E9 & E10 & E11).
          unfold extends; cbn in *; rewrite <- ?app_assoc in *; cbn in *; repeat split; auto.
          exists (r0 :: es). split; [exact E2 | constructor; auto].
        * rewrite X. intros H. inversion H as [|? ? H0 ?]; inversion H0; congruence. }
  specialize (Main _ IH emptyUMessageBody).
  destruct (F (b_body b) emptyUMessageBody) as [r|].
  - destruct Main as [H1 (E1 & (es & E2 & E2') & (ms & E3 & E3') & E4 & E5 & E6 & E7 & E8 & E9 & E10 & E11)].
    cbn in *. split; [constructor; exact H1|]. constructor; cbn; try rewrite E2; try rewrite E3; auto.
  - intros H. inversion H; auto.
Qed.

Lemma InterpretMessage_spec b :
  match InterpretMessage b with
  | Some r => message_ok b /\ message_view b r
  | None => ~ message_ok b
  end.
Proof. exact (InterpretMessage_all (VMessage b)). Qed.

Definition pstmt_ok (v : visitee) : Prop :=
  match v with
  | VImport _ | VPackage _ | VOption _ | VEmpty _ => True
  | VMessage b => message_ok b
  | VExtend b => forallb extend_ok (b_body b) = true
  | VEnum b => forallb enum_ok (b_body b) = true
  | VService b => forallb service_ok (b_body b) = true
  | _ => False
  end.
Definition proto_view (p : proto) (r : uProto) : Prop :=
  upr_syntax r = p_syntax p /\
  up_imports (upr_body r) = pick as_import (p_body p) /\
  up_packages (upr_body r) = pick as_package (p_body p) /\
  up_options (upr_body r) = pick as_option (p_body p) /\
  Forall2 message_view (pick as_message (p_body p)) (up_messages (upr_body r)) /\
  Forall2 extend_view (pick as_extend (p_body p)) (up_extends (upr_body r)) /\
  Forall2 enum_view (pick as_enum (p_body p)) (up_enums (upr_body r)) /\
  Forall2 service_view (pick as_service (p_body p)) (up_services (upr_body r)) /\
  up_empties (upr_body r) = pick as_empty (p_body p).

Definition pextends (a : uProtoBody) (src : list visitee) (r : uProtoBody) : Prop :=
  up_imports r = up_imports a ++ pick as_import src /\
  up_packages r = up_packages a ++ pick as_package src /\
  up_options r = up_options a ++ pick as_option src /\
  (exists es, up_messages r = up_messages a ++ es /\ Forall2 message_view (pick as_message src) es) /\
  (exists es, up_extends r = up_extends a ++ es /\ Forall2 extend_view (pick as_extend src) es) /\
  (exists es, up_enums r = up_enums a ++ es /\ Forall2 enum_view (pick as_enum src) es) /\
  (exists es, up_services r = up_services a ++ es /\ Forall2 service_view (pick as_service src) es) /\
  up_empties r = up_empties a ++ pick as_empty src.

Lemma protoBody_spec src : forall a,
  match interpretProtoBody src a with
  | Some r => Forall pstmt_ok src /\ pextends a src r
  | None => ~ Forall pstmt_ok src
  end.
Proof.
  induction src as [|s src IHs]; intros a.
  - cbn. split; [constructor|]. unfold pextends. rewrite !app_nil_r.
    repeat split; try (exists []; rewrite app_nil_r; split; [reflexivity|constructor]).
  - assert (skipcase : forall a', pstmt_ok s ->
                (forall r, pextends a' src r -> pextends a (s :: src) r) ->
                match interpretProtoBody src a' with
                | Some r => Forall pstmt_ok (s :: src) /\ pextends a (s :: src) r
                | None => ~ Forall pstmt_ok (s :: src)
                end).
    { intros a' Hok Hext. specialize (IHs a'). destruct (interpretProtoBody src a').
      - destruct IHs as [H1 H2]. split; [constructor; auto | auto].
      - intros H. inversion H; auto. }
    assert (nested : forall (e : Prop) (P : Prop), ~ e -> (pstmt_ok s -> e) -> ~ Forall pstmt_ok (s :: src)).
    { intros e _ He Hi H. inversion H; auto. }
    destruct s; cbn [interpretProtoBody];
      try (intros H; inversion H; auto; fail);
      try (apply skipcase; [exact I|]; intros rr (E1 & E2 & E3 & E4 & E5 & E6 & E7 & E8);
           unfold pextends; cbn in *; rewrite <- ?app_assoc in *; cbn in *; repeat split; auto; fail).
    + assert (X := InterpretMessage_spec m). destruct (InterpretMessage m) as [u|].
      * destruct X as [X1 X2]. apply skipcase; [exact X1|].
        intros rr (E1 & E2 & E3 & (es & E4 & E4') & E5 & E6 & E7 & E8).
        unfold pextends; cbn in *; rewrite <- ?app_assoc in *; cbn in *; repeat split; auto.
        exists (u :: es). split; [exact E4 | constructor; auto].
      * intros H. inversion H; auto.
    + assert (X := InterpretEnum_spec e). destruct (forallb enum_ok (b_body e)) eqn:OK.
      * destruct X as (u & -> & V). apply skipcase; [exact OK|].
        intros rr (E1 & E2 & E3 & E4 & E5 & (es & E6 & E6') & E7 & E8).
        unfold pextends; cbn in *; rewrite <- ?app_assoc in *; cbn in *; repeat split; auto.
        exists (u :: es). split; [exact E6 | constructor; auto].
      * rewrite X. intros H. inversion H as [|? ? H0 ?]. cbn in H0. congruence.
    + assert (X := InterpretService_spec s). destruct (forallb service_ok (b_body s)) eqn:OK.
      * destruct X as (u & -> & V). apply skipcase; [exact OK|].
        intros rr (E1 & E2 & E3 & E4 & E5 & E6 & (es & E7 & E7') & E8).
        unfold pextends; cbn in *; rewrite <- ?app_assoc in *; cbn in *; repeat split; auto.
        exists (u :: es). split; [exact E7 | constructor; auto].
      * rewrite X. intros H. inversion H as [|? ? H0 ?]. cbn in H0. congruence.
    + assert (X := InterpretExtend_spec x). destruct (forallb extend_ok (b_body x)) eqn:OK.
      * destruct X as (u & -> & V). apply skipcase; [exact OK|].
        intros rr (E1 & E2 & E3 & E4 & (es & E5 & E5') & E6 & E7 & E8).
        unfold pextends; cbn in *; rewrite <- ?app_assoc in *; cbn in *; repeat split; auto.
        exists (u :: es). split; [exact E5 | constructor; auto].
      * rewrite X. intros H. inversion H as [|? ? H0 ?]. cbn in H0. congruence.
Qed.

Lemma InterpretProto_spec p :
  match InterpretProto p with
  | Some r => Forall pstmt_ok (p_body p) /\ proto_view p r
  | None => ~ Forall pstmt_ok (p_body p)
  end.
Proof.
  unfold InterpretProto.
  assert (X := protoBody_spec (p_body p) (mkUProtoBody [] [] [] [] [] [] [] [])).
  destruct (interpretProtoBody _ _) as [r|]; auto.
  destruct X as [X1 (E1 & E2 & E3 & (? & E4 & E4') & (? & E5 & E5') & (? & E6 & E6') & (? & E7 & E7') & E8)].
  cbn in *. split; auto. unfold proto_view. cbn. rewrite E4, E5, E6, E7. repeat split; auto.
Qed.
Lemma parse_settings opts opts' input :
  cfg_permissive (config_of opts) = cfg_permissive (config_of opts') ->
  cfg_bodyIncludingComments (config_of opts) = cfg_bodyIncludingComments (config_of opts') ->
  cfg_filename (config_of opts) = cfg_filename (config_of opts') ->
  Parse opts input = Parse opts' input.
Proof. intros H1 H2 H3. unfold Parse, parse_fuel. rewrite H1, H2, H3. reflexivity. Qed.
