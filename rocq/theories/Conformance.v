(** Validation of the model, not proof: every table-driven case of the Go tests
    parser/{syntax,edition,import,package,option,field,mapField,groupField,oneof,
    enum,extend,message,service,reserved,extensions,declaration,proto,comment}_test.go
    evaluated in the model, with the expected AST and positions of the test, and
    the files of _testdata (accepted).  Strings are lists of runes. *)
From Coq Require Import List NArith ZArith Bool String Ascii.
From Verif Require Import Base Token Scanner Lexer Ast Parser Api.
Import ListNotations.
Definition is_err {A} (r : res A) : bool := match r with Err _ => true | _ => false end.
Definition is_ok {A} (r : res A) : bool := match r with Ok _ => true | _ => false end.
Open Scope Z_scope.
Example c_syntax_0 : fst (ParseSyntax (init_st []%N []%N)) = Ok (None). Proof. vm_compute. reflexivity. Qed.
Example c_syntax_1 : fst (ParseSyntax (init_st []%N [115;121;110;116;97;120;32;61;32;34;112;114;111;116;111;51;34;59]%N)) = Ok (Some (mkSyntax [112;114;111;116;111;51]%N [34;112;114;111;116;111;51;34]%N [] None (mkMeta (mkPos []%N 0 1 1) (mkPos []%N 17 1 18)))). Proof. vm_compute. reflexivity. Qed.
Example c_syntax_2 : fst (ParseSyntax (init_st []%N [115;121;110;116;97;120;32;61;32;39;112;114;111;116;111;51;39;59]%N)) = Ok (Some (mkSyntax [112;114;111;116;111;51]%N [39;112;114;111;116;111;51;39]%N [] None (mkMeta (mkPos []%N 0 1 1) (mkPos []%N 17 1 18)))). Proof. vm_compute. reflexivity. Qed.
Example c_syntax_3 : fst (ParseSyntax (init_st []%N [115;121;110;116;97;120;32;61;32;34;112;114;111;116;111;50;34;59]%N)) = Ok (Some (mkSyntax [112;114;111;116;111;50]%N [34;112;114;111;116;111;50;34]%N [] None (mkMeta (mkPos []%N 0 1 1) (mkPos []%N 17 1 18)))). Proof. vm_compute. reflexivity. Qed.
Example c_edition_4 : fst (ParseEdition (init_st []%N []%N)) = Ok (None). Proof. vm_compute. reflexivity. Qed.
Example c_edition_5 : fst (ParseEdition (init_st []%N [101;100;105;116;105;111;110;32;61;32;34;50;48;50;51;34;59]%N)) = Ok (Some (mkEdition [50;48;50;51]%N [34;50;48;50;51;34]%N [] None (mkMeta (mkPos []%N 0 1 1) (mkPos []%N 16 1 17)))). Proof. vm_compute. reflexivity. Qed.
Example c_import_6 : is_err (fst (ParseImport (init_st []%N []%N))) = true. Proof. vm_compute. reflexivity. Qed. (*  *)
Example c_import_7 : is_err (fst (ParseImport (init_st []%N [34;111;116;104;101;114;46;112;114;111;116;111;34;59]%N))) = true. Proof. vm_compute. reflexivity. Qed. (*  *)
Example c_import_8 : is_err (fst (ParseImport (init_st []%N [105;109;112;111;114;116;32;39;111;116;104;101;114;46;112;114;111;116;111;34;59]%N))) = true. Proof. vm_compute. reflexivity. Qed. (*  *)
Example c_import_9 : fst (ParseImport (init_st []%N [105;109;112;111;114;116;32;34;103;111;111;103;108;101;47;112;114;111;116;111;98;117;102;47;116;105;109;101;115;116;97;109;112;46;112;114;111;116;111;34;59]%N)) = Ok (mkImport ImportModifierNone [34;103;111;111;103;108;101;47;112;114;111;116;111;98;117;102;47;116;105;109;101;115;116;97;109;112;46;112;114;111;116;111;34]%N [] None (mkMeta (mkPos []%N 0 1 1) (mkPos []%N 40 1 41))). Proof. vm_compute. reflexivity. Qed.
Example c_import_10 : fst (ParseImport (init_st []%N [105;109;112;111;114;116;32;112;117;98;108;105;99;32;34;111;116;104;101;114;46;112;114;111;116;111;34;59]%N)) = Ok (mkImport ImportModifierPublic [34;111;116;104;101;114;46;112;114;111;116;111;34]%N [] None (mkMeta (mkPos []%N 0 1 1) (mkPos []%N 27 1 28))). Proof. vm_compute. reflexivity. Qed.
Example c_import_11 : fst (ParseImport (init_st []%N [105;109;112;111;114;116;32;119;101;97;107;32;34;111;116;104;101;114;46;112;114;111;116;111;34;59]%N)) = Ok (mkImport ImportModifierWeak [34;111;116;104;101;114;46;112;114;111;116;111;34]%N [] None (mkMeta (mkPos []%N 0 1 1) (mkPos []%N 25 1 26))). Proof. vm_compute. reflexivity. Qed.
Example c_package_12 : is_err (fst (ParsePackage (init_st []%N []%N))) = true. Proof. vm_compute. reflexivity. Qed. (*  *)
Example c_package_13 : fst (ParsePackage (init_st []%N [112;97;99;107;97;103;101;32;102;111;111;46;98;97;114;59]%N)) = Ok (mkPackage [102;111;111;46;98;97;114]%N [] None (mkMeta (mkPos []%N 0 1 1) (mkPos []%N 15 1 16))). Proof. vm_compute. reflexivity. Qed.
Example c_option_14 : is_err (fst (ParseOption false (init_st []%N []%N))) = true. Proof. vm_compute. reflexivity. Qed. (*  *)
Example c_option_15 : is_err (fst (ParseOption false (init_st []%N [106;97;118;97;95;112;97;99;107;97;103;101;32;61;32;34;99;111;109;46;101;120;97;109;112;108;101;46;102;111;111;34;59]%N))) = true. Proof. vm_compute. reflexivity. Qed. (*  *)
Example c_option_16 : is_err (fst (ParseOption false (init_st []%N [111;112;116;105;111;110;32;106;97;118;97;95;112;97;99;107;97;103;101;32;34;99;111;109;46;101;120;97;109;112;108;101;46;102;111;111;34;59]%N))) = true. Proof. vm_compute. reflexivity. Qed. (*  *)
Example c_option_17 : is_err (fst (ParseOption false (init_st []%N [111;112;116;105;111;110;32;106;97;118;97;95;112;97;99;107;97;103;101;32;61;32;34;99;111;109;46;101;120;97;109;112;108;101;46;102;111;111;34]%N))) = true. Proof. vm_compute. reflexivity. Qed. (*  *)
Example c_option_18 : fst (ParseOption false (init_st []%N [111;112;116;105;111;110;32;106;97;118;97;95;112;97;99;107;97;103;101;32;61;32;34;99;111;109;46;101;120;97;109;112;108;101;46;102;111;111;34;59]%N)) = Ok (mkOption [106;97;118;97;95;112;97;99;107;97;103;101]%N [34;99;111;109;46;101;120;97;109;112;108;101;46;102;111;111;34]%N [] None (mkMeta (mkPos []%N 0 1 1) (mkPos []%N 39 1 40))). Proof. vm_compute. reflexivity. Qed.
Example c_option_19 : fst (ParseOption false (init_st []%N [111;112;116;105;111;110;32;40;109;121;95;111;112;116;105;111;110;41;46;97;32;61;32;116;114;117;101;59]%N)) = Ok (mkOption [40;109;121;95;111;112;116;105;111;110;41;46;97]%N [116;114;117;101]%N [] None (mkMeta (mkPos []%N 0 1 1) (mkPos []%N 27 1 28))). Proof. vm_compute. reflexivity. Qed.
Example c_option_20 : fst (ParseOption false (init_st []%N [111;112;116;105;111;110;32;106;97;118;97;95;112;97;99;107;97;103;101;46;98;97;122;46;98;97;114;32;61;32;34;99;111;109;46;101;120;97;109;112;108;101;46;102;111;111;34;59]%N)) = Ok (mkOption [106;97;118;97;95;112;97;99;107;97;103;101;46;98;97;122;46;98;97;114]%N [34;99;111;109;46;101;120;97;109;112;108;101;46;102;111;111;34]%N [] None (mkMeta (mkPos []%N 0 1 1) (mkPos []%N 47 1 48))). Proof. vm_compute. reflexivity. Qed.
Example c_option_21 : fst (ParseOption true (init_st []%N [10;111;112;116;105;111;110;32;40;103;111;111;103;108;101;46;97;112;105;46;104;116;116;112;41;32;61;32;123;10;32;32;32;32;103;101;116;58;32;34;47;118;49;47;112;114;111;106;101;99;116;115;47;123;112;114;111;106;101;99;116;95;105;100;125;47;97;103;103;114;101;103;97;116;101;100;47;97;100;100;114;101;115;115;101;115;34;10;32;32;32;32;114;101;115;116;95;99;111;108;108;101;99;116;105;111;110;58;32;34;112;114;111;106;101;99;116;115;46;97;100;100;114;101;115;115;101;115;34;10;125;59]%N)) = Ok (mkOption [40;103;111;111;103;108;101;46;97;112;105;46;104;116;116;112;41]%N [123;103;101;116;58;34;47;118;49;47;112;114;111;106;101;99;116;115;47;123;112;114;111;106;101;99;116;95;105;100;125;47;97;103;103;114;101;103;97;116;101;100;47;97;100;100;114;101;115;115;101;115;34;10;114;101;115;116;95;99;111;108;108;101;99;116;105;111;110;58;34;112;114;111;106;101;99;116;115;46;97;100;100;114;101;115;115;101;115;34;125]%N [] None (mkMeta (mkPos []%N 1 2 1) (mkPos []%N 131 5 2))). Proof. vm_compute. reflexivity. Qed.
Example c_option_22 : fst (ParseOption true (init_st []%N [10;111;112;116;105;111;110;32;40;103;111;111;103;108;101;46;97;112;105;46;104;116;116;112;41;32;61;32;123;10;32;32;32;32;112;111;115;116;58;32;34;47;118;49;47;114;101;115;111;117;114;99;101;115;34;44;10;32;32;32;32;98;111;100;121;58;32;34;114;101;115;111;117;114;99;101;34;44;10;32;32;32;32;114;101;115;116;95;109;101;116;104;111;100;95;110;97;109;101;58;32;34;105;110;115;101;114;116;34;10;125;59]%N)) = Ok (mkOption [40;103;111;111;103;108;101;46;97;112;105;46;104;116;116;112;41]%N [123;112;111;115;116;58;34;47;118;49;47;114;101;115;111;117;114;99;101;115;34;44;98;111;100;121;58;34;114;101;115;111;117;114;99;101;34;44;114;101;115;116;95;109;101;116;104;111;100;95;110;97;109;101;58;34;105;110;115;101;114;116;34;125]%N [] None (mkMeta (mkPos []%N 1 2 1) (mkPos []%N 111 6 2))). Proof. vm_compute. reflexivity. Qed.
Example c_option_23 : fst (ParseOption true (init_st []%N [10;111;112;116;105;111;110;32;40;103;111;111;103;108;101;46;97;112;105;46;104;116;116;112;41;32;61;32;123;10;32;32;32;32;112;111;115;116;58;32;34;47;118;49;47;114;101;115;111;117;114;99;101;115;34;44;10;32;32;32;32;98;111;100;121;58;32;34;114;101;115;34;10;9;9;32;32;32;32;32;32;34;111;117;114;99;101;34;44;10;32;32;32;32;114;101;115;116;95;109;101;116;104;111;100;95;110;97;109;101;58;32;34;105;110;115;101;114;116;34;10;125;59]%N)) = Ok (mkOption [40;103;111;111;103;108;101;46;97;112;105;46;104;116;116;112;41]%N [123;112;111;115;116;58;34;47;118;49;47;114;101;115;111;117;114;99;101;115;34;44;98;111;100;121;58;34;114;101;115;111;117;114;99;101;34;44;114;101;115;116;95;109;101;116;104;111;100;95;110;97;109;101;58;34;105;110;115;101;114;116;34;125]%N [] None (mkMeta (mkPos []%N 1 2 1) (mkPos []%N 122 7 2))). Proof. vm_compute. reflexivity. Qed.
Example c_option_24 : fst (ParseOption true (init_st []%N [10;111;112;116;105;111;110;32;40;103;111;111;103;108;101;46;97;112;105;46;104;116;116;112;41;32;61;32;123;10;32;32;32;32;112;111;115;116;58;32;34;47;118;49;47;114;101;115;111;117;114;99;101;115;34;44;10;32;32;32;32;97;100;100;105;116;105;111;110;97;108;95;98;105;110;100;105;110;103;115;58;32;123;10;9;9;112;111;115;116;58;32;34;47;118;50;47;114;101;115;111;117;114;99;101;115;34;10;9;125;59;10;125;59]%N)) = Ok (mkOption [40;103;111;111;103;108;101;46;97;112;105;46;104;116;116;112;41]%N [123;112;111;115;116;58;34;47;118;49;47;114;101;115;111;117;114;99;101;115;34;44;97;100;100;105;116;105;111;110;97;108;95;98;105;110;100;105;110;103;115;58;123;112;111;115;116;58;34;47;118;50;47;114;101;115;111;117;114;99;101;115;34;125;59;125]%N [] None (mkMeta (mkPos []%N 1 2 1) (mkPos []%N 113 7 2))). Proof. vm_compute. reflexivity. Qed.
Example c_option_25 : fst (ParseOption true (init_st []%N [10;111;112;116;105;111;110;32;40;103;111;111;103;108;101;46;97;112;105;46;104;116;116;112;41;32;61;32;123;10;32;32;32;32;112;111;115;116;58;32;34;47;118;49;47;114;101;115;111;117;114;99;101;115;34;44;10;32;32;32;32;98;111;100;121;58;32;34;100;97;116;97;34;44;10;125;59]%N)) = Ok (mkOption [40;103;111;111;103;108;101;46;97;112;105;46;104;116;116;112;41]%N [123;112;111;115;116;58;34;47;118;49;47;114;101;115;111;117;114;99;101;115;34;44;98;111;100;121;58;34;100;97;116;97;34;44;125]%N [] None (mkMeta (mkPos []%N 1 2 1) (mkPos []%N 76 5 2))). Proof. vm_compute. reflexivity. Qed.
Example c_option_26 : fst (ParseOption true (init_st []%N [10;111;112;116;105;111;110;32;40;111;112;116;41;32;61;32;123;10;32;32;32;32;101;109;112;116;121;32;58;32;123;125;44;10;32;32;32;32;105;110;110;101;114;95;101;109;112;116;121;32;58;32;123;10;32;32;32;32;9;101;109;112;116;121;32;58;32;123;125;44;10;9;125;44;10;125;59]%N)) = Ok (mkOption [40;111;112;116;41]%N [123;101;109;112;116;121;58;123;125;44;105;110;110;101;114;95;101;109;112;116;121;58;123;101;109;112;116;121;58;123;125;44;125;44;125]%N [] None (mkMeta (mkPos []%N 1 2 1) (mkPos []%N 76 7 2))). Proof. vm_compute. reflexivity. Qed.
Example c_option_27 : fst (ParseOption true (init_st []%N [10;111;112;116;105;111;110;32;40;103;111;111;103;108;101;46;97;112;105;46;104;116;116;112;41;32;61;32;123;10;9;112;117;116;58;32;34;47;118;50;47;101;120;97;109;112;108;101;47;97;95;98;105;116;95;111;102;95;101;118;101;114;121;116;104;105;110;103;47;123;97;98;101;46;117;117;105;100;125;34;10;9;97;100;100;105;116;105;111;110;97;108;95;98;105;110;100;105;110;103;115;58;32;91;10;9;9;123;10;9;9;9;112;97;116;99;104;58;32;34;47;118;50;47;101;120;97;109;112;108;101;47;97;95;98;105;116;95;111;102;95;101;118;101;114;121;116;104;105;110;103;47;123;97;98;101;46;117;117;105;100;125;34;10;9;9;9;98;111;100;121;58;32;34;97;98;101;34;10;9;9;125;44;10;9;9;123;10;9;9;9;112;97;116;99;104;58;32;34;47;118;50;97;47;101;120;97;109;112;108;101;47;97;95;98;105;116;95;111;102;95;101;118;101;114;121;116;104;105;110;103;47;123;97;98;101;46;117;117;105;100;125;34;10;9;9;9;98;111;100;121;58;32;34;42;34;10;9;9;125;10;9;93;10;125;59]%N)) = Ok (mkOption [40;103;111;111;103;108;101;46;97;112;105;46;104;116;116;112;41]%N [123;112;117;116;58;34;47;118;50;47;101;120;97;109;112;108;101;47;97;95;98;105;116;95;111;102;95;101;118;101;114;121;116;104;105;110;103;47;123;97;98;101;46;117;117;105;100;125;34;10;97;100;100;105;116;105;111;110;97;108;95;98;105;110;100;105;110;103;115;58;91;123;112;97;116;99;104;58;34;47;118;50;47;101;120;97;109;112;108;101;47;97;95;98;105;116;95;111;102;95;101;118;101;114;121;116;104;105;110;103;47;123;97;98;101;46;117;117;105;100;125;34;10;98;111;100;121;58;34;97;98;101;34;125;44;123;112;97;116;99;104;58;34;47;118;50;97;47;101;120;97;109;112;108;101;47;97;95;98;105;116;95;111;102;95;101;118;101;114;121;116;104;105;110;103;47;123;97;98;101;46;117;117;105;100;125;34;10;98;111;100;121;58;34;42;34;125;93;125]%N [] None (mkMeta (mkPos []%N 1 2 1) (mkPos []%N 265 14 2))). Proof. vm_compute. reflexivity. Qed.
Example c_option_28 : fst (ParseOption true (init_st []%N [111;112;116;105;111;110;32;40;46;102;111;111;46;98;97;114;46;110;97;109;101;41;32;61;32;34;110;97;109;101;34;59]%N)) = Ok (mkOption [40;46;102;111;111;46;98;97;114;46;110;97;109;101;41]%N [34;110;97;109;101;34]%N [] None (mkMeta (mkPos []%N 0 1 1) (mkPos []%N 31 1 32))). Proof. vm_compute. reflexivity. Qed.
Example c_option_29 : fst (ParseOption true (init_st []%N [111;112;116;105;111;110;32;102;111;111;46;40;98;97;114;46;98;97;122;41;46;110;97;109;101;32;61;32;34;118;97;108;117;101;34;59]%N)) = Ok (mkOption [102;111;111;46;40;98;97;114;46;98;97;122;41;46;110;97;109;101]%N [34;118;97;108;117;101;34]%N [] None (mkMeta (mkPos []%N 0 1 1) (mkPos []%N 35 1 36))). Proof. vm_compute. reflexivity. Qed.
Example c_field_30 : is_err (fst (ParseField false (init_st []%N []%N))) = true. Proof. vm_compute. reflexivity. Qed. (*  *)
Example c_field_31 : is_err (fst (ParseField false (init_st []%N [102;111;111;46;98;97;114;32;110;101;115;116;101;100;95;109;101;115;115;97;103;101;32;61;32;59]%N))) = true. Proof. vm_compute. reflexivity. Qed. (*  *)
Example c_field_32 : is_err (fst (ParseField false (init_st []%N [102;111;111;46;98;97;114;32;110;101;115;116;101;100;95;109;101;115;115;97;103;101;32;61;32;97;59]%N))) = true. Proof. vm_compute. reflexivity. Qed. (*  *)
Example c_field_33 : fst (ParseField false (init_st []%N [102;111;111;46;98;97;114;32;110;101;115;116;101;100;95;109;101;115;115;97;103;101;32;61;32;50;59]%N)) = Ok (mkField false false false [102;111;111;46;98;97;114]%N [110;101;115;116;101;100;95;109;101;115;115;97;103;101]%N [50]%N [] [] None (mkMeta (mkPos []%N 0 1 1) (mkPos []%N 26 1 27))). Proof. vm_compute. reflexivity. Qed.
Example c_field_34 : fst (ParseField false (init_st []%N [114;101;112;101;97;116;101;100;32;105;110;116;51;50;32;115;97;109;112;108;101;115;32;61;32;52;32;91;112;97;99;107;101;100;61;116;114;117;101;93;59]%N)) = Ok (mkField true false false [105;110;116;51;50]%N [115;97;109;112;108;101;115]%N [52]%N [(mkFieldOption [112;97;99;107;101;100]%N [116;114;117;101]%N)] [] None (mkMeta (mkPos []%N 0 1 1) (mkPos []%N 40 1 41))). Proof. vm_compute. reflexivity. Qed.
Example c_field_35 : fst (ParseField false (init_st []%N [114;101;112;101;97;116;101;100;32;105;110;116;51;50;32;115;97;109;112;108;101;115;32;61;32;52;32;91;112;97;99;107;101;100;61;116;114;117;101;44;32;114;101;113;117;105;114;101;100;61;102;97;108;115;101;93;59]%N)) = Ok (mkField true false false [105;110;116;51;50]%N [115;97;109;112;108;101;115]%N [52]%N [(mkFieldOption [112;97;99;107;101;100]%N [116;114;117;101]%N);(mkFieldOption [114;101;113;117;105;114;101;100]%N [102;97;108;115;101]%N)] [] None (mkMeta (mkPos []%N 0 1 1) (mkPos []%N 56 1 57))). Proof. vm_compute. reflexivity. Qed.
Example c_field_36 : is_err (fst (ParseField false (init_st []%N [105;110;116;54;52;32;100;105;115;112;108;97;121;95;111;114;100;101;114;32;61;32;49;32;91;40;118;97;108;105;100;97;116;111;114;46;102;105;101;108;100;41;32;61;32;123;105;110;116;95;103;116;58;32;48;125;93;59]%N))) = true. Proof. vm_compute. reflexivity. Qed. (*  *)
Example c_field_37 : fst (ParseField true (init_st []%N [105;110;116;54;52;32;100;105;115;112;108;97;121;95;111;114;100;101;114;32;61;32;49;32;91;40;118;97;108;105;100;97;116;111;114;46;102;105;101;108;100;41;32;61;32;123;105;110;116;95;103;116;58;32;48;125;93;59]%N)) = Ok (mkField false false false [105;110;116;54;52]%N [100;105;115;112;108;97;121;95;111;114;100;101;114]%N [49]%N [(mkFieldOption [40;118;97;108;105;100;97;116;111;114;46;102;105;101;108;100;41]%N [123;105;110;116;95;103;116;58;48;125]%N)] [] None (mkMeta (mkPos []%N 0 1 1) (mkPos []%N 57 1 58))). Proof. vm_compute. reflexivity. Qed.
Example c_field_38 : fst (ParseField true (init_st []%N [105;110;116;54;52;32;100;105;115;112;108;97;121;95;111;114;100;101;114;32;61;32;49;32;91;40;118;97;108;105;100;97;116;111;114;46;102;105;101;108;100;41;32;61;32;123;105;110;116;95;103;116;58;32;48;44;125;93;59]%N)) = Ok (mkField false false false [105;110;116;54;52]%N [100;105;115;112;108;97;121;95;111;114;100;101;114]%N [49]%N [(mkFieldOption [40;118;97;108;105;100;97;116;111;114;46;102;105;101;108;100;41]%N [123;105;110;116;95;103;116;58;48;44;125]%N)] [] None (mkMeta (mkPos []%N 0 1 1) (mkPos []%N 58 1 59))). Proof. vm_compute. reflexivity. Qed.
Example c_field_39 : fst (ParseField true (init_st []%N [115;116;114;105;110;103;32;101;109;97;105;108;32;61;32;50;32;91;40;118;97;108;105;100;97;116;111;114;46;102;105;101;108;100;41;32;61;32;123;108;101;110;103;116;104;95;103;116;58;32;48;44;32;108;101;110;103;116;104;95;108;116;58;32;49;48;50;53;125;44;40;118;97;108;105;100;97;116;111;114;46;102;105;101;108;100;41;32;61;32;123;114;101;103;101;120;58;32;34;91;97;45;102;65;45;70;48;45;57;93;123;56;125;45;91;97;45;102;65;45;70;48;45;57;93;123;52;125;45;91;97;45;102;65;45;70;48;45;57;93;123;52;125;45;91;97;45;102;65;45;70;48;45;57;93;123;52;125;45;91;97;45;102;65;45;70;48;45;57;93;123;49;50;125;34;125;93;59]%N)) = Ok (mkField false false false [115;116;114;105;110;103]%N [101;109;97;105;108]%N [50]%N [(mkFieldOption [40;118;97;108;105;100;97;116;111;114;46;102;105;101;108;100;41]%N [123;108;101;110;103;116;104;95;103;116;58;48;44;108;101;110;103;116;104;95;108;116;58;49;48;50;53;125]%N);(mkFieldOption [40;118;97;108;105;100;97;116;111;114;46;102;105;101;108;100;41]%N [123;114;101;103;101;120;58;34;91;97;45;102;65;45;70;48;45;57;93;123;56;125;45;91;97;45;102;65;45;70;48;45;57;93;123;52;125;45;91;97;45;102;65;45;70;48;45;57;93;123;52;125;45;91;97;45;102;65;45;70;48;45;57;93;123;52;125;45;91;97;45;102;65;45;70;48;45;57;93;123;49;50;125;34;125]%N)] [] None (mkMeta (mkPos []%N 0 1 1) (mkPos []%N 177 1 178))). Proof. vm_compute. reflexivity. Qed.
Example c_field_40 : fst (ParseField false (init_st []%N [111;112;116;105;111;110;97;108;32;102;111;111;46;98;97;114;32;110;101;115;116;101;100;95;109;101;115;115;97;103;101;32;61;32;50;59]%N)) = Ok (mkField false false true [102;111;111;46;98;97;114]%N [110;101;115;116;101;100;95;109;101;115;115;97;103;101]%N [50]%N [] [] None (mkMeta (mkPos []%N 0 1 1) (mkPos []%N 35 1 36))). Proof. vm_compute. reflexivity. Qed.
Example c_field_41 : fst (ParseField false (init_st []%N [114;101;113;117;105;114;101;100;32;105;110;116;51;50;32;115;97;109;112;108;101;115;32;61;32;52;32;91;112;97;99;107;101;100;61;116;114;117;101;93;59]%N)) = Ok (mkField false true false [105;110;116;51;50]%N [115;97;109;112;108;101;115]%N [52]%N [(mkFieldOption [112;97;99;107;101;100]%N [116;114;117;101]%N)] [] None (mkMeta (mkPos []%N 0 1 1) (mkPos []%N 40 1 41))). Proof. vm_compute. reflexivity. Qed.
Example c_field_42 : fst (ParseField true (init_st []%N [115;116;114;105;110;103;32;101;109;97;105;108;95;105;100;32;61;32;49;91;40;103;114;112;99;46;103;97;116;101;119;97;121;46;112;114;111;116;111;99;95;103;101;110;95;115;119;97;103;103;101;114;46;111;112;116;105;111;110;115;46;111;112;101;110;97;112;105;118;50;95;102;105;101;108;100;41;32;61;32;123;10;9;112;97;116;116;101;114;110;58;32;34;94;45;33;35;36;37;38;39;42;43;92;47;48;45;57;61;63;65;45;90;94;95;97;45;122;123;124;125;126;64;97;45;122;65;45;90;48;45;57;92;46;97;45;122;65;45;90;43;36;34;10;9;109;97;120;95;108;101;110;103;116;104;58;32;50;53;52;10;9;109;105;110;95;108;101;110;103;116;104;58;32;49;10;9;100;101;115;99;114;105;112;116;105;111;110;58;32;34;69;110;116;101;114;32;117;115;101;114;32;101;109;97;105;108;34;10;125;93;59;10]%N)) = Ok (mkField false false false [115;116;114;105;110;103]%N [101;109;97;105;108;95;105;100]%N [49]%N [(mkFieldOption [40;103;114;112;99;46;103;97;116;101;119;97;121;46;112;114;111;116;111;99;95;103;101;110;95;115;119;97;103;103;101;114;46;111;112;116;105;111;110;115;46;111;112;101;110;97;112;105;118;50;95;102;105;101;108;100;41]%N [123;112;97;116;116;101;114;110;58;34;94;45;33;35;36;37;38;39;42;43;92;47;48;45;57;61;63;65;45;90;94;95;97;45;122;123;124;125;126;64;97;45;122;65;45;90;48;45;57;92;46;97;45;122;65;45;90;43;36;34;10;109;97;120;95;108;101;110;103;116;104;58;50;53;52;10;109;105;110;95;108;101;110;103;116;104;58;49;10;100;101;115;99;114;105;112;116;105;111;110;58;34;69;110;116;101;114;32;117;115;101;114;32;101;109;97;105;108;34;125]%N)] [] None (mkMeta (mkPos []%N 0 1 1) (mkPos []%N 211 6 3))). Proof. vm_compute. reflexivity. Qed.
Example c_field_43 : fst (ParseField true (init_st []%N [102;108;111;97;116;32;102;108;111;97;116;95;118;97;108;117;101;32;61;32;51;32;91;40;103;114;112;99;46;103;97;116;101;119;97;121;46;112;114;111;116;111;99;95;103;101;110;95;115;119;97;103;103;101;114;46;111;112;116;105;111;110;115;46;111;112;101;110;97;112;105;118;50;95;102;105;101;108;100;41;32;61;32;123;100;101;115;99;114;105;112;116;105;111;110;58;32;34;70;108;111;97;116;32;118;97;108;117;101;32;102;105;101;108;100;34;44;32;100;101;102;97;117;108;116;58;32;34;48;46;50;34;44;32;114;101;113;117;105;114;101;100;58;32;91;39;102;108;111;97;116;95;118;97;108;117;101;39;93;125;93;59]%N)) = Ok (mkField false false false [102;108;111;97;116]%N [102;108;111;97;116;95;118;97;108;117;101]%N [51]%N [(mkFieldOption [40;103;114;112;99;46;103;97;116;101;119;97;121;46;112;114;111;116;111;99;95;103;101;110;95;115;119;97;103;103;101;114;46;111;112;116;105;111;110;115;46;111;112;101;110;97;112;105;118;50;95;102;105;101;108;100;41]%N [123;100;101;115;99;114;105;112;116;105;111;110;58;34;70;108;111;97;116;32;118;97;108;117;101;32;102;105;101;108;100;34;44;100;101;102;97;117;108;116;58;34;48;46;50;34;44;114;101;113;117;105;114;101;100;58;91;39;102;108;111;97;116;95;118;97;108;117;101;39;93;125]%N)] [] None (mkMeta (mkPos []%N 0 1 1) (mkPos []%N 161 1 162))). Proof. vm_compute. reflexivity. Qed.
Example c_mapField_44 : is_err (fst (ParseMapField false (init_st []%N []%N))) = true. Proof. vm_compute. reflexivity. Qed. (*  *)
Example c_mapField_45 : is_err (fst (ParseMapField false (init_st []%N [60;115;116;114;105;110;103;44;32;80;114;111;106;101;99;116;62;32;112;114;111;106;101;99;116;115;32;61;32;51;59]%N))) = true. Proof. vm_compute. reflexivity. Qed. (*  *)
Example c_mapField_46 : is_err (fst (ParseMapField false (init_st []%N [109;97;112;60;99;117;115;116;111;109;84;121;112;101;44;32;80;114;111;106;101;99;116;62;32;112;114;111;106;101;99;116;115;32;61;32;51;59]%N))) = true. Proof. vm_compute. reflexivity. Qed. (*  *)
Example c_mapField_47 : fst (ParseMapField false (init_st []%N [109;97;112;60;115;116;114;105;110;103;44;32;80;114;111;106;101;99;116;62;32;112;114;111;106;101;99;116;115;32;61;32;51;59]%N)) = Ok (mkMapField [115;116;114;105;110;103]%N [80;114;111;106;101;99;116]%N [112;114;111;106;101;99;116;115]%N [51]%N [] [] None (mkMeta (mkPos []%N 0 1 1) (mkPos []%N 33 1 34))). Proof. vm_compute. reflexivity. Qed.
Example c_groupField_48 : is_err (fst (ParseGroupField (parseMessageBody false false 3) (init_st []%N []%N))) = true. Proof. vm_compute. reflexivity. Qed. (*  *)
Example c_groupField_49 : is_err (fst (ParseGroupField (parseMessageBody false false 128) (init_st []%N [10;114;101;112;101;97;116;101;100;32;103;114;111;117;112;32;114;101;115;117;108;116;32;61;32;49;32;123;10;32;32;32;32;114;101;113;117;105;114;101;100;32;115;116;114;105;110;103;32;117;114;108;32;61;32;50;59;10;32;32;32;32;111;112;116;105;111;110;97;108;32;115;116;114;105;110;103;32;116;105;116;108;101;32;61;32;51;59;10;32;32;32;32;114;101;112;101;97;116;101;100;32;115;116;114;105;110;103;32;115;110;105;112;112;101;116;115;32;61;32;52;59;10;125;10]%N))) = true. Proof. vm_compute. reflexivity. Qed. (*  *)
Example c_groupField_50 : fst (ParseGroupField (parseMessageBody false false 128) (init_st []%N [10;114;101;112;101;97;116;101;100;32;103;114;111;117;112;32;82;101;115;117;108;116;32;61;32;49;32;123;10;32;32;32;32;114;101;113;117;105;114;101;100;32;115;116;114;105;110;103;32;117;114;108;32;61;32;50;59;10;32;32;32;32;111;112;116;105;111;110;97;108;32;115;116;114;105;110;103;32;116;105;116;108;101;32;61;32;51;59;10;32;32;32;32;114;101;112;101;97;116;101;100;32;115;116;114;105;110;103;32;115;110;105;112;112;101;116;115;32;61;32;52;59;10;125;10]%N)) = Ok (mkGroupField true false false [82;101;115;117;108;116]%N [(VField (mkField false true false [115;116;114;105;110;103]%N [117;114;108]%N [50]%N [] [] None (mkMeta (mkPos []%N 33 3 5) (mkPos []%N 56 3 28))));(VField (mkField false false true [115;116;114;105;110;103]%N [116;105;116;108;101]%N [51]%N [] [] None (mkMeta (mkPos []%N 62 4 5) (mkPos []%N 87 4 30))));(VField (mkField true false false [115;116;114;105;110;103]%N [115;110;105;112;112;101;116;115]%N [52]%N [] [] None (mkMeta (mkPos []%N 93 5 5) (mkPos []%N 121 5 33))))] [49]%N [] None None (mkMeta (mkPos []%N 1 2 1) (mkPos []%N 123 6 1))). Proof. vm_compute. reflexivity. Qed.
Example c_groupField_51 : fst (ParseGroupField (parseMessageBody true false 26) (init_st []%N [10;103;114;111;117;112;32;82;101;115;117;108;116;32;61;32;49;32;123;10;125;59;10]%N)) = Ok (mkGroupField false false false [82;101;115;117;108;116]%N [] [49]%N [] None None (mkMeta (mkPos []%N 1 2 1) (mkPos []%N 21 3 2))). Proof. vm_compute. reflexivity. Qed.
Example c_groupField_52 : fst (ParseGroupField (parseMessageBody true false 25) (init_st []%N [10;103;114;111;117;112;32;82;101;115;117;108;116;32;61;32;49;32;123;10;125;10]%N)) = Ok (mkGroupField false false false [82;101;115;117;108;116]%N [] [49]%N [] None None (mkMeta (mkPos []%N 1 2 1) (mkPos []%N 20 3 1))). Proof. vm_compute. reflexivity. Qed.
Example c_oneof_53 : is_err (fst (ParseOneof false (init_st []%N []%N))) = true. Proof. vm_compute. reflexivity. Qed. (*  *)
Example c_oneof_54 : is_err (fst (ParseOneof false (init_st []%N [102;111;111;32;123;10;32;32;32;32;115;116;114;105;110;103;32;110;97;109;101;32;61;32;52;59;10;32;32;32;32;83;117;98;77;101;115;115;97;103;101;32;115;117;98;95;109;101;115;115;97;103;101;32;61;32;57;59;10;125;10]%N))) = true. Proof. vm_compute. reflexivity. Qed. (*  *)
Example c_oneof_55 : is_err (fst (ParseOneof false (init_st []%N [111;110;101;111;102;32;102;111;111;32;123;10;32;32;32;32;115;116;114;105;110;103;32;110;97;109;101;32;61;32;52;59;10;32;32;32;32;83;117;98;77;101;115;115;97;103;101;32;115;117;98;95;109;101;115;115;97;103;101;32;61;32;57;59;10]%N))) = true. Proof. vm_compute. reflexivity. Qed. (*  *)
Example c_oneof_56 : fst (ParseOneof false (init_st []%N [111;110;101;111;102;32;102;111;111;32;123;10;32;32;32;32;115;116;114;105;110;103;32;110;97;109;101;32;61;32;52;59;10;32;32;32;32;83;117;98;77;101;115;115;97;103;101;32;115;117;98;95;109;101;115;115;97;103;101;32;61;32;57;59;10;125;10]%N)) = Ok (mkOneof [(mkOneofField [115;116;114;105;110;103]%N [110;97;109;101]%N [52]%N [] [] None (mkMeta (mkPos []%N 16 2 5) (mkPos []%N 31 2 20)));(mkOneofField [83;117;98;77;101;115;115;97;103;101]%N [115;117;98;95;109;101;115;115;97;103;101]%N [57]%N [] [] None (mkMeta (mkPos []%N 37 3 5) (mkPos []%N 63 3 31)))] [102;111;111]%N [] [] None None (mkMeta (mkPos []%N 0 1 1) (mkPos []%N 65 4 1))). Proof. vm_compute. reflexivity. Qed.
Example c_oneof_57 : fst (ParseOneof false (init_st []%N [111;110;101;111;102;32;102;111;111;32;123;10;32;32;32;32;115;116;114;105;110;103;32;110;97;109;101;32;61;32;52;59;10;32;32;32;32;59;10;32;32;32;32;83;117;98;77;101;115;115;97;103;101;32;115;117;98;95;109;101;115;115;97;103;101;32;61;32;57;59;10;125;10]%N)) = Ok (mkOneof [(mkOneofField [115;116;114;105;110;103]%N [110;97;109;101]%N [52]%N [] [] None (mkMeta (mkPos []%N 16 2 5) (mkPos []%N 31 2 20)));(mkOneofField [83;117;98;77;101;115;115;97;103;101]%N [115;117;98;95;109;101;115;115;97;103;101]%N [57]%N [] [] None (mkMeta (mkPos []%N 43 4 5) (mkPos []%N 69 4 31)))] [102;111;111]%N [] [] None None (mkMeta (mkPos []%N 0 1 1) (mkPos []%N 71 5 1))). Proof. vm_compute. reflexivity. Qed.
Example c_oneof_58 : fst (ParseOneof false (init_st []%N [111;110;101;111;102;32;102;111;111;32;123;10;32;32;32;32;47;47;32;110;97;109;101;10;32;32;32;32;115;116;114;105;110;103;32;110;97;109;101;32;61;32;52;59;10;32;32;32;32;47;47;32;115;117;98;95;109;101;115;115;97;103;101;10;32;32;32;32;83;117;98;77;101;115;115;97;103;101;32;115;117;98;95;109;101;115;115;97;103;101;32;61;32;57;59;10;125;10]%N)) = Ok (mkOneof [(mkOneofField [115;116;114;105;110;103]%N [110;97;109;101]%N [52]%N [] [(mkComment [47;47;32;110;97;109;101]%N (mkMeta (mkPos []%N 16 2 5) (mkPos []%N 22 2 11)))] None (mkMeta (mkPos []%N 28 3 5) (mkPos []%N 43 3 20)));(mkOneofField [83;117;98;77;101;115;115;97;103;101]%N [115;117;98;95;109;101;115;115;97;103;101]%N [57]%N [] [(mkComment [47;47;32;115;117;98;95;109;101;115;115;97;103;101]%N (mkMeta (mkPos []%N 49 4 5) (mkPos []%N 62 4 18)))] None (mkMeta (mkPos []%N 68 5 5) (mkPos []%N 94 5 31)))] [102;111;111]%N [] [] None None (mkMeta (mkPos []%N 0 1 1) (mkPos []%N 96 6 1))). Proof. vm_compute. reflexivity. Qed.
Example c_oneof_59 : fst (ParseOneof false (init_st []%N [111;110;101;111;102;32;102;111;111;32;123;32;47;47;32;84;79;68;79;58;32;105;109;112;108;101;109;101;110;116;97;116;105;111;110;10;32;32;32;32;115;116;114;105;110;103;32;110;97;109;101;32;61;32;52;59;32;47;47;32;110;97;109;101;10;32;32;32;32;83;117;98;77;101;115;115;97;103;101;32;115;117;98;95;109;101;115;115;97;103;101;32;61;32;57;59;32;47;47;32;115;117;98;95;109;101;115;115;97;103;101;10;125;10]%N)) = Ok (mkOneof [(mkOneofField [115;116;114;105;110;103]%N [110;97;109;101]%N [52]%N [] [] (Some (mkComment [47;47;32;110;97;109;101]%N (mkMeta (mkPos []%N 57 2 22) (mkPos []%N 63 2 28)))) (mkMeta (mkPos []%N 40 2 5) (mkPos []%N 55 2 20)));(mkOneofField [83;117;98;77;101;115;115;97;103;101]%N [115;117;98;95;109;101;115;115;97;103;101]%N [57]%N [] [] (Some (mkComment [47;47;32;115;117;98;95;109;101;115;115;97;103;101]%N (mkMeta (mkPos []%N 97 3 33) (mkPos []%N 110 3 46)))) (mkMeta (mkPos []%N 69 3 5) (mkPos []%N 95 3 31)))] [102;111;111]%N [] [] None (Some (mkComment [47;47;32;84;79;68;79;58;32;105;109;112;108;101;109;101;110;116;97;116;105;111;110]%N (mkMeta (mkPos []%N 12 1 13) (mkPos []%N 34 1 35)))) (mkMeta (mkPos []%N 0 1 1) (mkPos []%N 112 4 1))). Proof. vm_compute. reflexivity. Qed.
Example c_oneof_60 : fst (ParseOneof true (init_st []%N [111;110;101;111;102;32;102;111;111;32;123;10;32;32;32;32;115;116;114;105;110;103;32;110;97;109;101;32;61;32;52;59;10;125;59;10]%N)) = Ok (mkOneof [(mkOneofField [115;116;114;105;110;103]%N [110;97;109;101]%N [52]%N [] [] None (mkMeta (mkPos []%N 16 2 5) (mkPos []%N 31 2 20)))] [102;111;111]%N [] [] None None (mkMeta (mkPos []%N 0 1 1) (mkPos []%N 34 3 2))). Proof. vm_compute. reflexivity. Qed.
Example c_oneof_61 : fst (ParseOneof true (init_st []%N [111;110;101;111;102;32;102;111;111;32;123;10;32;32;32;32;115;116;114;105;110;103;32;110;97;109;101;32;61;32;52;59;10;125;10]%N)) = Ok (mkOneof [(mkOneofField [115;116;114;105;110;103]%N [110;97;109;101]%N [52]%N [] [] None (mkMeta (mkPos []%N 16 2 5) (mkPos []%N 31 2 20)))] [102;111;111]%N [] [] None None (mkMeta (mkPos []%N 0 1 1) (mkPos []%N 33 3 1))). Proof. vm_compute. reflexivity. Qed.
Example c_oneof_62 : fst (ParseOneof true (init_st []%N [111;110;101;111;102;32;115;111;109;101;116;104;105;110;103;32;123;10;32;32;111;112;116;105;111;110;32;40;118;97;108;105;100;97;116;111;114;46;111;110;101;111;102;41;32;61;32;123;114;101;113;117;105;114;101;100;58;32;116;114;117;101;125;59;10;32;32;117;105;110;116;51;50;32;116;104;114;101;101;95;105;110;116;32;61;32;53;32;91;40;118;97;108;105;100;97;116;111;114;46;102;105;101;108;100;41;32;61;32;123;105;110;116;95;103;116;58;32;50;48;125;93;59;10;32;32;117;105;110;116;51;50;32;102;111;117;114;95;105;110;116;32;61;32;54;32;91;40;118;97;108;105;100;97;116;111;114;46;102;105;101;108;100;41;32;61;32;123;105;110;116;95;103;116;58;32;49;48;48;125;93;59;10;32;32;115;116;114;105;110;103;32;102;105;118;101;95;114;101;103;101;120;32;61;32;55;32;91;40;118;97;108;105;100;97;116;111;114;46;102;105;101;108;100;41;32;61;32;123;114;101;103;101;120;58;32;34;94;91;97;45;122;93;123;50;44;53;125;36;34;125;93;59;10;125;10]%N)) = Ok (mkOneof [(mkOneofField [117;105;110;116;51;50]%N [116;104;114;101;101;95;105;110;116]%N [53]%N [(mkFieldOption [40;118;97;108;105;100;97;116;111;114;46;102;105;101;108;100;41]%N [123;105;110;116;95;103;116;58;50;48;125]%N)] [] None (mkMeta (mkPos []%N 67 3 3) (mkPos []%N 122 3 58)));(mkOneofField [117;105;110;116;51;50]%N [102;111;117;114;95;105;110;116]%N [54]%N [(mkFieldOption [40;118;97;108;105;100;97;116;111;114;46;102;105;101;108;100;41]%N [123;105;110;116;95;103;116;58;49;48;48;125]%N)] [] None (mkMeta (mkPos []%N 126 4 3) (mkPos []%N 181 4 58)));(mkOneofField [115;116;114;105;110;103]%N [102;105;118;101;95;114;101;103;101;120]%N [55]%N [(mkFieldOption [40;118;97;108;105;100;97;116;111;114;46;102;105;101;108;100;41]%N [123;114;101;103;101;120;58;34;94;91;97;45;122;93;123;50;44;53;125;36;34;125]%N)] [] None (mkMeta (mkPos []%N 185 5 3) (mkPos []%N 252 5 70)))] [115;111;109;101;116;104;105;110;103]%N [(mkOption [40;118;97;108;105;100;97;116;111;114;46;111;110;101;111;102;41]%N [123;114;101;113;117;105;114;101;100;58;116;114;117;101;125]%N [] None (mkMeta (mkPos []%N 20 2 3) (mkPos []%N 63 2 46)))] [] None None (mkMeta (mkPos []%N 0 1 1) (mkPos []%N 254 6 1))). Proof. vm_compute. reflexivity. Qed.
Example c_oneof_63 : fst (ParseOneof false (init_st []%N [111;110;101;111;102;32;115;111;109;101;116;104;105;110;103;32;123;10;32;32;111;112;116;105;111;110;32;40;109;121;95;111;112;116;105;111;110;41;46;97;32;61;32;116;114;117;101;59;10;125;10]%N)) = Ok (mkOneof [] [115;111;109;101;116;104;105;110;103]%N [(mkOption [40;109;121;95;111;112;116;105;111;110;41;46;97]%N [116;114;117;101]%N [] None (mkMeta (mkPos []%N 20 2 3) (mkPos []%N 47 2 30)))] [] None None (mkMeta (mkPos []%N 0 1 1) (mkPos []%N 49 3 1))). Proof. vm_compute. reflexivity. Qed.
Example c_enum_64 : is_err (fst (ParseEnum false false (init_st []%N []%N))) = true. Proof. vm_compute. reflexivity. Qed. (*  *)
Example c_enum_65 : is_err (fst (ParseEnum false false (init_st []%N [101;110;117;109;32;69;110;117;109;65;108;108;111;119;105;110;103;65;108;105;97;115;32;123;10;32;32;97;108;108;111;119;95;97;108;105;97;115;32;61;32;116;114;117;101;59;10;32;32;85;78;75;78;79;87;78;32;61;32;48;59;10;32;32;83;84;65;82;84;69;68;32;61;32;49;59;10;32;32;82;85;78;78;73;78;71;32;61;32;50;32;91;40;99;117;115;116;111;109;95;111;112;116;105;111;110;41;32;61;32;34;104;101;108;108;111;32;119;111;114;108;100;34;93;59;10;125;10]%N))) = true. Proof. vm_compute. reflexivity. Qed. (*  *)
Example c_enum_66 : fst (ParseEnum false false (init_st []%N [101;110;117;109;32;69;110;117;109;65;108;108;111;119;105;110;103;65;108;105;97;115;32;123;10;32;32;111;112;116;105;111;110;32;97;108;108;111;119;95;97;108;105;97;115;32;61;32;116;114;117;101;59;10;32;32;85;78;75;78;79;87;78;32;61;32;48;59;10;32;32;83;84;65;82;84;69;68;32;61;32;49;59;10;32;32;82;85;78;78;73;78;71;32;61;32;50;32;91;40;99;117;115;116;111;109;95;111;112;116;105;111;110;41;32;61;32;34;104;101;108;108;111;32;119;111;114;108;100;34;93;59;10;125;10]%N)) = Ok (mkBlock [69;110;117;109;65;108;108;111;119;105;110;103;65;108;105;97;115]%N [(VOption (mkOption [97;108;108;111;119;95;97;108;105;97;115]%N [116;114;117;101]%N [] None (mkMeta (mkPos []%N 27 2 3) (mkPos []%N 52 2 28))));(VEnumField (mkEnumField [85;78;75;78;79;87;78]%N [48]%N [] [] None (mkMeta (mkPos []%N 56 3 3) (mkPos []%N 67 3 14))));(VEnumField (mkEnumField [83;84;65;82;84;69;68]%N [49]%N [] [] None (mkMeta (mkPos []%N 71 4 3) (mkPos []%N 82 4 14))));(VEnumField (mkEnumField [82;85;78;78;73;78;71]%N [50]%N [(mkEnumValueOption [40;99;117;115;116;111;109;95;111;112;116;105;111;110;41]%N [34;104;101;108;108;111;32;119;111;114;108;100;34]%N)] [] None (mkMeta (mkPos []%N 86 5 3) (mkPos []%N 131 5 48))))] [] None None (mkMeta (mkPos []%N 0 1 1) (mkPos []%N 133 6 1))). Proof. vm_compute. reflexivity. Qed.
Example c_enum_67 : fst (ParseEnum false false (init_st []%N [101;110;117;109;32;69;110;117;109;65;108;108;111;119;105;110;103;65;108;105;97;115;32;123;10;32;32;82;85;78;78;73;78;71;32;61;32;48;32;91;40;99;117;115;116;111;109;95;111;112;116;105;111;110;41;32;61;32;34;104;101;108;108;111;32;119;111;114;108;100;34;44;32;40;99;117;115;116;111;109;95;111;112;116;105;111;110;50;41;32;61;32;34;104;101;108;108;111;32;119;111;114;108;100;50;34;93;59;10;125;10]%N)) = Ok (mkBlock [69;110;117;109;65;108;108;111;119;105;110;103;65;108;105;97;115]%N [(VEnumField (mkEnumField [82;85;78;78;73;78;71]%N [48]%N [(mkEnumValueOption [40;99;117;115;116;111;109;95;111;112;116;105;111;110;41]%N [34;104;101;108;108;111;32;119;111;114;108;100;34]%N);(mkEnumValueOption [40;99;117;115;116;111;109;95;111;112;116;105;111;110;50;41]%N [34;104;101;108;108;111;32;119;111;114;108;100;50;34]%N)] [] None (mkMeta (mkPos []%N 27 2 3) (mkPos []%N 107 2 83))))] [] None None (mkMeta (mkPos []%N 0 1 1) (mkPos []%N 109 3 1))). Proof. vm_compute. reflexivity. Qed.
Example c_enum_68 : fst (ParseEnum false false (init_st []%N [101;110;117;109;32;69;110;117;109;65;108;108;111;119;105;110;103;65;108;105;97;115;32;123;10;32;32;47;47;32;111;112;116;105;111;110;10;32;32;111;112;116;105;111;110;32;97;108;108;111;119;95;97;108;105;97;115;32;61;32;116;114;117;101;59;10;32;32;47;47;32;85;78;75;78;79;87;78;10;32;32;85;78;75;78;79;87;78;32;61;32;48;59;10;125;10]%N)) = Ok (mkBlock [69;110;117;109;65;108;108;111;119;105;110;103;65;108;105;97;115]%N [(VOption (mkOption [97;108;108;111;119;95;97;108;105;97;115]%N [116;114;117;101]%N [(mkComment [47;47;32;111;112;116;105;111;110]%N (mkMeta (mkPos []%N 27 2 3) (mkPos []%N 35 2 11)))] None (mkMeta (mkPos []%N 39 3 3) (mkPos []%N 64 3 28))));(VEnumField (mkEnumField [85;78;75;78;79;87;78]%N [48]%N [] [(mkComment [47;47;32;85;78;75;78;79;87;78]%N (mkMeta (mkPos []%N 68 4 3) (mkPos []%N 77 4 12)))] None (mkMeta (mkPos []%N 81 5 3) (mkPos []%N 92 5 14))))] [] None None (mkMeta (mkPos []%N 0 1 1) (mkPos []%N 94 6 1))). Proof. vm_compute. reflexivity. Qed.
Example c_enum_69 : fst (ParseEnum false false (init_st []%N [101;110;117;109;32;69;110;117;109;65;108;108;111;119;105;110;103;65;108;105;97;115;32;123;32;47;47;32;84;79;68;79;58;32;105;109;112;108;101;109;101;110;116;97;116;105;111;110;10;32;32;111;112;116;105;111;110;32;97;108;108;111;119;95;97;108;105;97;115;32;61;32;116;114;117;101;59;32;47;47;32;111;112;116;105;111;110;10;32;32;85;78;75;78;79;87;78;32;61;32;48;59;32;47;47;32;85;78;75;78;79;87;78;10;125;10]%N)) = Ok (mkBlock [69;110;117;109;65;108;108;111;119;105;110;103;65;108;105;97;115]%N [(VOption (mkOption [97;108;108;111;119;95;97;108;105;97;115]%N [116;114;117;101]%N [] (Some (mkComment [47;47;32;111;112;116;105;111;110]%N (mkMeta (mkPos []%N 78 2 30) (mkPos []%N 86 2 38)))) (mkMeta (mkPos []%N 51 2 3) (mkPos []%N 76 2 28))));(VEnumField (mkEnumField [85;78;75;78;79;87;78]%N [48]%N [] [] (Some (mkComment [47;47;32;85;78;75;78;79;87;78]%N (mkMeta (mkPos []%N 103 3 16) (mkPos []%N 112 3 25)))) (mkMeta (mkPos []%N 90 3 3) (mkPos []%N 101 3 14))))] [] None (Some (mkComment [47;47;32;84;79;68;79;58;32;105;109;112;108;101;109;101;110;116;97;116;105;111;110]%N (mkMeta (mkPos []%N 25 1 26) (mkPos []%N 47 1 48)))) (mkMeta (mkPos []%N 0 1 1) (mkPos []%N 114 4 1))). Proof. vm_compute. reflexivity. Qed.
Example c_enum_70 : fst (ParseEnum false false (init_st []%N [101;110;117;109;32;69;110;117;109;65;108;108;111;119;105;110;103;65;108;105;97;115;32;123;10;32;32;111;112;116;105;111;110;32;97;108;108;111;119;95;97;108;105;97;115;32;61;32;116;114;117;101;59;10;32;32;47;47;32;108;97;115;116;32;108;105;110;101;10;125;10]%N)) = Ok (mkBlock [69;110;117;109;65;108;108;111;119;105;110;103;65;108;105;97;115]%N [(VOption (mkOption [97;108;108;111;119;95;97;108;105;97;115]%N [116;114;117;101]%N [] None (mkMeta (mkPos []%N 27 2 3) (mkPos []%N 52 2 28))))] [] None None (mkMeta (mkPos []%N 0 1 1) (mkPos []%N 69 4 1))). Proof. vm_compute. reflexivity. Qed.
Example c_enum_71 : fst (ParseEnum false true (init_st []%N [101;110;117;109;32;69;110;117;109;65;108;108;111;119;105;110;103;65;108;105;97;115;32;123;10;32;32;111;112;116;105;111;110;32;97;108;108;111;119;95;97;108;105;97;115;32;61;32;116;114;117;101;59;10;32;32;47;47;32;108;97;115;116;32;102;105;114;115;116;32;99;111;109;109;101;110;116;10;32;32;47;42;32;108;97;115;116;32;115;101;99;111;110;100;32;99;111;109;109;101;110;116;32;42;47;10;125;10]%N)) = Ok (mkBlock [69;110;117;109;65;108;108;111;119;105;110;103;65;108;105;97;115]%N [(VOption (mkOption [97;108;108;111;119;95;97;108;105;97;115]%N [116;114;117;101]%N [] None (mkMeta (mkPos []%N 27 2 3) (mkPos []%N 52 2 28))));(VComment (mkComment [47;47;32;108;97;115;116;32;102;105;114;115;116;32;99;111;109;109;101;110;116]%N (mkMeta (mkPos []%N 56 3 3) (mkPos []%N 76 3 23))));(VComment (mkComment [47;42;32;108;97;115;116;32;115;101;99;111;110;100;32;99;111;109;109;101;110;116;32;42;47]%N (mkMeta (mkPos []%N 80 4 3) (mkPos []%N 104 4 27))))] [] None None (mkMeta (mkPos []%N 0 1 1) (mkPos []%N 106 5 1))). Proof. vm_compute. reflexivity. Qed.
Example c_enum_72 : fst (ParseEnum false false (init_st []%N [101;110;117;109;32;70;111;111;32;123;10;32;32;114;101;115;101;114;118;101;100;32;50;44;32;49;53;44;32;57;32;116;111;32;49;49;44;32;52;48;32;116;111;32;109;97;120;59;10;32;32;114;101;115;101;114;118;101;100;32;34;70;79;79;34;44;32;34;66;65;82;34;59;10;125;10]%N)) = Ok (mkBlock [70;111;111]%N [(VReserved (mkReserved [(mkRange [50]%N []%N);(mkRange [49;53]%N []%N);(mkRange [57]%N [49;49]%N);(mkRange [52;48]%N [109;97;120]%N)] [] [] None (mkMeta (mkPos []%N 13 2 3) (mkPos []%N 47 2 37))));(VReserved (mkReserved [] [[34;70;79;79;34]%N;[34;66;65;82;34]%N] [] None (mkMeta (mkPos []%N 51 3 3) (mkPos []%N 72 3 24))))] [] None None (mkMeta (mkPos []%N 0 1 1) (mkPos []%N 74 4 1))). Proof. vm_compute. reflexivity. Qed.
Example c_enum_73 : fst (ParseEnum true false (init_st []%N [101;110;117;109;32;69;110;117;109;65;108;108;111;119;105;110;103;65;108;105;97;115;32;123;10;125;59;10]%N)) = Ok (mkBlock [69;110;117;109;65;108;108;111;119;105;110;103;65;108;105;97;115]%N [] [] None None (mkMeta (mkPos []%N 0 1 1) (mkPos []%N 26 2 2))). Proof. vm_compute. reflexivity. Qed.
Example c_enum_74 : fst (ParseEnum true false (init_st []%N [101;110;117;109;32;69;110;117;109;65;108;108;111;119;105;110;103;65;108;105;97;115;32;123;10;125;10]%N)) = Ok (mkBlock [69;110;117;109;65;108;108;111;119;105;110;103;65;108;105;97;115]%N [] [] None None (mkMeta (mkPos []%N 0 1 1) (mkPos []%N 25 2 1))). Proof. vm_compute. reflexivity. Qed.
Example c_enum_75 : fst (ParseEnum true false (init_st []%N [101;110;117;109;32;69;110;117;109;65;108;108;111;119;105;110;103;65;108;105;97;115;32;123;10;32;32;85;78;75;78;79;87;78;32;61;32;48;32;91;40;99;117;115;116;111;109;95;111;112;116;105;111;110;41;32;61;32;34;116;104;105;115;32;105;115;32;97;32;34;10;32;32;32;32;32;32;32;32;32;32;32;32;32;32;32;32;32;32;32;32;32;32;32;32;32;32;32;32;32;32;32;32;32;34;115;116;114;105;110;103;32;111;110;32;116;119;111;32;108;105;110;101;115;34;10;32;32;32;32;32;32;32;32;32;32;32;32;32;32;93;59;10;125;10]%N)) = Ok (mkBlock [69;110;117;109;65;108;108;111;119;105;110;103;65;108;105;97;115]%N [(VEnumField (mkEnumField [85;78;75;78;79;87;78]%N [48]%N [(mkEnumValueOption [40;99;117;115;116;111;109;95;111;112;116;105;111;110;41]%N [34;116;104;105;115;32;105;115;32;97;32;115;116;114;105;110;103;32;111;110;32;116;119;111;32;108;105;110;101;115;34]%N)] [] None (mkMeta (mkPos []%N 27 2 3) (mkPos []%N 141 4 16))))] [] None None (mkMeta (mkPos []%N 0 1 1) (mkPos []%N 143 5 1))). Proof. vm_compute. reflexivity. Qed.
Example c_enum_76 : fst (ParseEnum false false (init_st []%N [101;110;117;109;32;84;101;115;116;78;101;103;97;116;105;118;101;86;97;108;117;101;32;123;10;32;32;78;69;71;65;84;73;86;69;95;67;79;78;83;84;65;78;84;32;61;32;45;49;59;10;32;32;90;69;82;79;95;67;79;78;83;84;65;78;84;32;61;32;48;59;10;32;32;80;79;83;73;84;73;86;69;95;67;79;78;83;84;65;78;84;32;61;32;49;59;10;125;10]%N)) = Ok (mkBlock [84;101;115;116;78;101;103;97;116;105;118;101;86;97;108;117;101]%N [(VEnumField (mkEnumField [78;69;71;65;84;73;86;69;95;67;79;78;83;84;65;78;84]%N [45;49]%N [] [] None (mkMeta (mkPos []%N 27 2 3) (mkPos []%N 49 2 25))));(VEnumField (mkEnumField [90;69;82;79;95;67;79;78;83;84;65;78;84]%N [48]%N [] [] None (mkMeta (mkPos []%N 53 3 3) (mkPos []%N 70 3 20))));(VEnumField (mkEnumField [80;79;83;73;84;73;86;69;95;67;79;78;83;84;65;78;84]%N [49]%N [] [] None (mkMeta (mkPos []%N 74 4 3) (mkPos []%N 95 4 24))))] [] None None (mkMeta (mkPos []%N 0 1 1) (mkPos []%N 97 5 1))). Proof. vm_compute. reflexivity. Qed.
Example c_extend_77 : is_err (fst (ParseExtend false false (init_st []%N []%N))) = true. Proof. vm_compute. reflexivity. Qed. (*  *)
Example c_extend_78 : fst (ParseExtend false false (init_st []%N [10;101;120;116;101;110;100;32;70;111;111;32;123;10;32;32;105;110;116;51;50;32;98;97;114;32;61;32;49;50;54;59;10;125;10]%N)) = Ok (mkBlock [70;111;111]%N [(VField (mkField false false false [105;110;116;51;50]%N [98;97;114]%N [49;50;54]%N [] [] None (mkMeta (mkPos []%N 16 3 3) (mkPos []%N 31 3 18))))] [] None None (mkMeta (mkPos []%N 1 2 1) (mkPos []%N 33 4 1))). Proof. vm_compute. reflexivity. Qed.
Example c_extend_79 : fst (ParseExtend false false (init_st []%N [10;101;120;116;101;110;100;32;103;111;111;103;108;101;46;112;114;111;116;111;98;117;102;46;77;101;116;104;111;100;79;112;116;105;111;110;115;32;123;10;32;32;47;47;32;83;101;101;32;72;116;116;112;82;117;108;101;46;10;32;32;72;116;116;112;82;117;108;101;32;104;116;116;112;32;61;32;55;50;50;57;53;55;50;56;59;10;125]%N)) = Ok (mkBlock [103;111;111;103;108;101;46;112;114;111;116;111;98;117;102;46;77;101;116;104;111;100;79;112;116;105;111;110;115]%N [(VField (mkField false false false [72;116;116;112;82;117;108;101]%N [104;116;116;112]%N [55;50;50;57;53;55;50;56]%N [] [(mkComment [47;47;32;83;101;101;32;72;116;116;112;82;117;108;101;46]%N (mkMeta (mkPos []%N 42 3 3) (mkPos []%N 57 3 18)))] None (mkMeta (mkPos []%N 61 4 3) (mkPos []%N 85 4 27))))] [] None None (mkMeta (mkPos []%N 1 2 1) (mkPos []%N 87 5 1))). Proof. vm_compute. reflexivity. Qed.
Example c_extend_80 : fst (ParseExtend true false (init_st []%N [10;101;120;116;101;110;100;32;70;111;111;32;123;10;125;59;10]%N)) = Ok (mkBlock [70;111;111]%N [] [] None None (mkMeta (mkPos []%N 1 2 1) (mkPos []%N 15 3 2))). Proof. vm_compute. reflexivity. Qed.
Example c_extend_81 : fst (ParseExtend true false (init_st []%N [10;101;120;116;101;110;100;32;70;111;111;32;123;10;125;10]%N)) = Ok (mkBlock [70;111;111]%N [] [] None None (mkMeta (mkPos []%N 1 2 1) (mkPos []%N 14 3 1))). Proof. vm_compute. reflexivity. Qed.
Example c_message_82 : is_err (fst (ParseMessage false false 3 (init_st []%N []%N))) = true. Proof. vm_compute. reflexivity. Qed. (*  *)
Example c_message_83 : fst (ParseMessage false false 128 (init_st []%N [10;109;101;115;115;97;103;101;32;79;117;116;101;114;32;123;10;32;32;111;112;116;105;111;110;32;40;109;121;95;111;112;116;105;111;110;41;46;97;32;61;32;116;114;117;101;59;10;32;32;109;101;115;115;97;103;101;32;73;110;110;101;114;32;123;10;32;32;32;32;105;110;116;54;52;32;105;118;97;108;32;61;32;49;59;10;32;32;125;10;32;32;109;97;112;60;105;110;116;51;50;44;32;115;116;114;105;110;103;62;32;109;121;95;109;97;112;32;61;32;50;59;10;125;10]%N)) = Ok (mkBlock [79;117;116;101;114]%N [(VOption (mkOption [40;109;121;95;111;112;116;105;111;110;41;46;97]%N [116;114;117;101]%N [] None (mkMeta (mkPos []%N 19 3 3) (mkPos []%N 46 3 30))));(VMessage (mkBlock [73;110;110;101;114]%N [(VField (mkField false false false [105;110;116;54;52]%N [105;118;97;108]%N [49]%N [] [] None (mkMeta (mkPos []%N 70 5 5) (mkPos []%N 84 5 19))))] [] None None (mkMeta (mkPos []%N 50 4 3) (mkPos []%N 88 6 3))));(VMapField (mkMapField [105;110;116;51;50]%N [115;116;114;105;110;103]%N [109;121;95;109;97;112]%N [50]%N [] [] None (mkMeta (mkPos []%N 92 7 3) (mkPos []%N 121 7 32))))] [] None None (mkMeta (mkPos []%N 1 2 1) (mkPos []%N 123 8 1))). Proof. vm_compute. reflexivity. Qed.
Example c_message_84 : fst (ParseMessage false false 199 (init_st []%N [10;109;101;115;115;97;103;101;32;111;117;116;101;114;32;123;10;32;32;111;112;116;105;111;110;32;40;109;121;95;111;112;116;105;111;110;41;46;97;32;61;32;116;114;117;101;59;10;32;32;109;101;115;115;97;103;101;32;105;110;110;101;114;32;123;10;32;32;32;32;105;110;116;54;52;32;105;118;97;108;32;61;32;49;59;10;32;32;125;10;32;32;114;101;112;101;97;116;101;100;32;105;110;110;101;114;32;105;110;110;101;114;95;109;101;115;115;97;103;101;32;61;32;50;59;10;32;32;69;110;117;109;65;108;108;111;119;105;110;103;65;108;105;97;115;32;101;110;117;109;95;102;105;101;108;100;32;61;51;59;10;32;32;109;97;112;60;105;110;116;51;50;44;32;115;116;114;105;110;103;62;32;109;121;95;109;97;112;32;61;32;52;59;10;125;10]%N)) = Ok (mkBlock [111;117;116;101;114]%N [(VOption (mkOption [40;109;121;95;111;112;116;105;111;110;41;46;97]%N [116;114;117;101]%N [] None (mkMeta (mkPos []%N 19 3 3) (mkPos []%N 46 3 30))));(VMessage (mkBlock [105;110;110;101;114]%N [(VField (mkField false false false [105;110;116;54;52]%N [105;118;97;108]%N [49]%N [] [] None (mkMeta (mkPos []%N 70 5 5) (mkPos []%N 84 5 19))))] [] None None (mkMeta (mkPos []%N 50 4 3) (mkPos []%N 88 6 3))));(VField (mkField true false false [105;110;110;101;114]%N [105;110;110;101;114;95;109;101;115;115;97;103;101]%N [50]%N [] [] None (mkMeta (mkPos []%N 92 7 3) (mkPos []%N 124 7 35))));(VField (mkField false false false [69;110;117;109;65;108;108;111;119;105;110;103;65;108;105;97;115]%N [101;110;117;109;95;102;105;101;108;100]%N [51]%N [] [] None (mkMeta (mkPos []%N 128 8 3) (mkPos []%N 159 8 34))));(VMapField (mkMapField [105;110;116;51;50]%N [115;116;114;105;110;103]%N [109;121;95;109;97;112]%N [52]%N [] [] None (mkMeta (mkPos []%N 163 9 3) (mkPos []%N 192 9 32))))] [] None None (mkMeta (mkPos []%N 1 2 1) (mkPos []%N 194 10 1))). Proof. vm_compute. reflexivity. Qed.
Example c_message_85 : fst (ParseMessage false false 22 (init_st []%N [10;109;101;115;115;97;103;101;32;79;117;116;101;114;32;123;10;125;10]%N)) = Ok (mkBlock [79;117;116;101;114]%N [] [] None None (mkMeta (mkPos []%N 1 2 1) (mkPos []%N 17 3 1))). Proof. vm_compute. reflexivity. Qed.
Example c_message_86 : fst (ParseMessage false false 443 (init_st []%N [10;109;101;115;115;97;103;101;32;111;117;116;101;114;32;123;10;32;32;47;47;32;111;112;116;105;111;110;10;32;32;111;112;116;105;111;110;32;40;109;121;95;111;112;116;105;111;110;41;46;97;32;61;32;116;114;117;101;59;10;32;32;47;47;32;109;101;115;115;97;103;101;10;32;32;109;101;115;115;97;103;101;32;105;110;110;101;114;32;123;32;32;32;47;47;32;76;101;118;101;108;32;50;10;32;32;32;32;105;110;116;54;52;32;105;118;97;108;32;61;32;49;59;10;32;32;125;10;32;32;47;47;32;102;105;101;108;100;10;32;32;114;101;112;101;97;116;101;100;32;105;110;110;101;114;32;105;110;110;101;114;95;109;101;115;115;97;103;101;32;61;32;50;59;10;32;32;47;47;32;101;110;117;109;10;32;32;101;110;117;109;32;69;110;117;109;65;108;108;111;119;105;110;103;65;108;105;97;115;32;123;10;32;32;32;32;111;112;116;105;111;110;32;97;108;108;111;119;95;97;108;105;97;115;32;61;32;116;114;117;101;59;10;32;32;125;10;32;32;69;110;117;109;65;108;108;111;119;105;110;103;65;108;105;97;115;32;101;110;117;109;95;102;105;101;108;100;32;61;51;59;10;32;32;47;47;32;109;97;112;10;32;32;109;97;112;60;105;110;116;51;50;44;32;115;116;114;105;110;103;62;32;109;121;95;109;97;112;32;61;32;52;59;10;32;32;47;47;32;111;110;101;111;102;10;32;32;111;110;101;111;102;32;102;111;111;32;123;10;32;32;32;32;115;116;114;105;110;103;32;110;97;109;101;32;61;32;53;59;10;32;32;32;32;83;117;98;77;101;115;115;97;103;101;32;115;117;98;95;109;101;115;115;97;103;101;32;61;32;54;59;10;32;32;125;10;32;32;47;47;32;114;101;115;101;114;118;101;100;10;32;32;114;101;115;101;114;118;101;100;32;34;98;97;114;34;59;10;125;10]%N)) = Ok (mkBlock [111;117;116;101;114]%N [(VOption (mkOption [40;109;121;95;111;112;116;105;111;110;41;46;97]%N [116;114;117;101]%N [(mkComment [47;47;32;111;112;116;105;111;110]%N (mkMeta (mkPos []%N 19 3 3) (mkPos []%N 27 3 11)))] None (mkMeta (mkPos []%N 31 4 3) (mkPos []%N 58 4 30))));(VMessage (mkBlock [105;110;110;101;114]%N [(VField (mkField false false false [105;110;116;54;52]%N [105;118;97;108]%N [49]%N [] [] None (mkMeta (mkPos []%N 108 7 5) (mkPos []%N 122 7 19))))] [(mkComment [47;47;32;109;101;115;115;97;103;101]%N (mkMeta (mkPos []%N 62 5 3) (mkPos []%N 71 5 12)))] None (Some (mkComment [47;47;32;76;101;118;101;108;32;50]%N (mkMeta (mkPos []%N 93 6 21) (mkPos []%N 102 6 30)))) (mkMeta (mkPos []%N 75 6 3) (mkPos []%N 126 8 3))));(VField (mkField true false false [105;110;110;101;114]%N [105;110;110;101;114;95;109;101;115;115;97;103;101]%N [50]%N [] [(mkComment [47;47;32;102;105;101;108;100]%N (mkMeta (mkPos []%N 130 9 3) (mkPos []%N 137 9 10)))] None (mkMeta (mkPos []%N 141 10 3) (mkPos []%N 173 10 35))));(VEnum (mkBlock [69;110;117;109;65;108;108;111;119;105;110;103;65;108;105;97;115]%N [(VOption (mkOption [97;108;108;111;119;95;97;108;105;97;115]%N [116;114;117;101]%N [] None (mkMeta (mkPos []%N 216 13 5) (mkPos []%N 241 13 30))))] [(mkComment [47;47;32;101;110;117;109]%N (mkMeta (mkPos []%N 177 11 3) (mkPos []%N 183 11 9)))] None None (mkMeta (mkPos []%N 187 12 3) (mkPos []%N 245 14 3))));(VField (mkField false false false [69;110;117;109;65;108;108;111;119;105;110;103;65;108;105;97;115]%N [101;110;117;109;95;102;105;101;108;100]%N [51]%N [] [] None (mkMeta (mkPos []%N 249 15 3) (mkPos []%N 280 15 34))));(VMapField (mkMapField [105;110;116;51;50]%N [115;116;114;105;110;103]%N [109;121;95;109;97;112]%N [52]%N [] [(mkComment [47;47;32;109;97;112]%N (mkMeta (mkPos []%N 284 16 3) (mkPos []%N 289 16 8)))] None (mkMeta (mkPos []%N 293 17 3) (mkPos []%N 322 17 32))));(VOneof (mkOneof [(mkOneofField [115;116;114;105;110;103]%N [110;97;109;101]%N [53]%N [] [] None (mkMeta (mkPos []%N 353 20 5) (mkPos []%N 368 20 20)));(mkOneofField [83;117;98;77;101;115;115;97;103;101]%N [115;117;98;95;109;101;115;115;97;103;101]%N [54]%N [] [] None (mkMeta (mkPos []%N 374 21 5) (mkPos []%N 400 21 31)))] [102;111;111]%N [] [(mkComment [47;47;32;111;110;101;111;102]%N (mkMeta (mkPos []%N 326 18 3) (mkPos []%N 333 18 10)))] None None (mkMeta (mkPos []%N 337 19 3) (mkPos []%N 404 22 3))));(VReserved (mkReserved [] [[34;98;97;114;34]%N] [(mkComment [47;47;32;114;101;115;101;114;118;101;100]%N (mkMeta (mkPos []%N 408 23 3) (mkPos []%N 418 23 13)))] None (mkMeta (mkPos []%N 422 24 3) (mkPos []%N 436 24 17))))] [] None None (mkMeta (mkPos []%N 1 2 1) (mkPos []%N 438 25 1))). Proof. vm_compute. reflexivity. Qed.
Example c_message_87 : fst (ParseMessage false false 251 (init_st []%N [10;109;101;115;115;97;103;101;32;83;101;97;114;99;104;82;101;113;117;101;115;116;32;123;10;32;32;115;116;114;105;110;103;32;113;117;101;114;121;32;61;32;49;59;10;32;32;105;110;116;51;50;32;112;97;103;101;95;110;117;109;98;101;114;32;61;32;50;59;32;32;47;47;32;87;104;105;99;104;32;112;97;103;101;32;110;117;109;98;101;114;32;100;111;32;119;101;32;119;97;110;116;63;10;32;32;105;110;116;51;50;32;114;101;115;117;108;116;95;112;101;114;95;112;97;103;101;32;61;32;51;59;32;32;47;47;32;78;117;109;98;101;114;32;111;102;32;114;101;115;117;108;116;115;32;116;111;32;114;101;116;117;114;110;32;112;101;114;32;112;97;103;101;46;10;32;32;101;110;117;109;32;69;110;117;109;65;108;108;111;119;105;110;103;65;108;105;97;115;32;123;10;32;32;32;32;111;112;116;105;111;110;32;97;108;108;111;119;95;97;108;105;97;115;32;61;32;116;114;117;101;59;10;32;32;125;32;47;47;32;65;108;105;97;115;10;125;10]%N)) = Ok (mkBlock [83;101;97;114;99;104;82;101;113;117;101;115;116]%N [(VField (mkField false false false [115;116;114;105;110;103]%N [113;117;101;114;121]%N [49]%N [] [] None (mkMeta (mkPos []%N 27 3 3) (mkPos []%N 43 3 19))));(VField (mkField false false false [105;110;116;51;50]%N [112;97;103;101;95;110;117;109;98;101;114]%N [50]%N [] [] (Some (mkComment [47;47;32;87;104;105;99;104;32;112;97;103;101;32;110;117;109;98;101;114;32;100;111;32;119;101;32;119;97;110;116;63]%N (mkMeta (mkPos []%N 71 4 27) (mkPos []%N 102 4 58)))) (mkMeta (mkPos []%N 47 4 3) (mkPos []%N 68 4 24))));(VField (mkField false false false [105;110;116;51;50]%N [114;101;115;117;108;116;95;112;101;114;95;112;97;103;101]%N [51]%N [] [] (Some (mkComment [47;47;32;78;117;109;98;101;114;32;111;102;32;114;101;115;117;108;116;115;32;116;111;32;114;101;116;117;114;110;32;112;101;114;32;112;97;103;101;46]%N (mkMeta (mkPos []%N 134 5 31) (mkPos []%N 173 5 70)))) (mkMeta (mkPos []%N 106 5 3) (mkPos []%N 131 5 28))));(VEnum (mkBlock [69;110;117;109;65;108;108;111;119;105;110;103;65;108;105;97;115]%N [(VOption (mkOption [97;108;108;111;119;95;97;108;105;97;115]%N [116;114;117;101]%N [] None (mkMeta (mkPos []%N 206 7 5) (mkPos []%N 231 7 30))))] [] (Some (mkComment [47;47;32;65;108;105;97;115]%N (mkMeta (mkPos []%N 237 8 5) (mkPos []%N 244 8 12)))) None (mkMeta (mkPos []%N 177 6 3) (mkPos []%N 235 8 3))))] [] None None (mkMeta (mkPos []%N 1 2 1) (mkPos []%N 246 9 1))). Proof. vm_compute. reflexivity. Qed.
Example c_message_88 : fst (ParseMessage false false 68 (init_st []%N [10;109;101;115;115;97;103;101;32;83;101;97;114;99;104;82;101;113;117;101;115;116;32;123;10;32;32;115;116;114;105;110;103;32;113;117;101;114;121;32;61;32;49;59;10;32;32;47;47;32;108;97;115;116;32;99;111;109;109;101;110;116;10;125;10]%N)) = Ok (mkBlock [83;101;97;114;99;104;82;101;113;117;101;115;116]%N [(VField (mkField false false false [115;116;114;105;110;103]%N [113;117;101;114;121]%N [49]%N [] [] None (mkMeta (mkPos []%N 27 3 3) (mkPos []%N 43 3 19))))] [] None None (mkMeta (mkPos []%N 1 2 1) (mkPos []%N 63 5 1))). Proof. vm_compute. reflexivity. Qed.
Example c_message_89 : fst (ParseMessage false true 102 (init_st []%N [10;109;101;115;115;97;103;101;32;83;101;97;114;99;104;82;101;113;117;101;115;116;32;123;10;32;32;115;116;114;105;110;103;32;113;117;101;114;121;32;61;32;49;59;10;32;32;47;47;32;108;97;115;116;32;102;105;114;115;116;32;99;111;109;109;101;110;116;10;32;32;47;42;32;108;97;115;116;32;115;101;99;111;110;100;32;99;111;109;109;101;110;116;32;42;47;10;125;10]%N)) = Ok (mkBlock [83;101;97;114;99;104;82;101;113;117;101;115;116]%N [(VField (mkField false false false [115;116;114;105;110;103]%N [113;117;101;114;121]%N [49]%N [] [] None (mkMeta (mkPos []%N 27 3 3) (mkPos []%N 43 3 19))));(VComment (mkComment [47;47;32;108;97;115;116;32;102;105;114;115;116;32;99;111;109;109;101;110;116]%N (mkMeta (mkPos []%N 47 4 3) (mkPos []%N 67 4 23))));(VComment (mkComment [47;42;32;108;97;115;116;32;115;101;99;111;110;100;32;99;111;109;109;101;110;116;32;42;47]%N (mkMeta (mkPos []%N 71 5 3) (mkPos []%N 95 5 27))))] [] None None (mkMeta (mkPos []%N 1 2 1) (mkPos []%N 97 6 1))). Proof. vm_compute. reflexivity. Qed.
Example c_message_90 : fst (ParseMessage false false 62 (init_st []%N [10;109;101;115;115;97;103;101;32;79;117;116;101;114;32;123;10;32;32;101;120;116;101;110;100;32;70;111;111;32;123;10;32;32;32;32;105;110;116;51;50;32;98;97;114;32;61;32;49;50;54;59;10;32;32;125;10;125;10]%N)) = Ok (mkBlock [79;117;116;101;114]%N [(VExtend (mkBlock [70;111;111]%N [(VField (mkField false false false [105;110;116;51;50]%N [98;97;114]%N [49;50;54]%N [] [] None (mkMeta (mkPos []%N 36 4 5) (mkPos []%N 51 4 20))))] [] None None (mkMeta (mkPos []%N 19 3 3) (mkPos []%N 55 5 3))))] [] None None (mkMeta (mkPos []%N 1 2 1) (mkPos []%N 57 6 1))). Proof. vm_compute. reflexivity. Qed.
Example c_message_91 : fst (ParseMessage false false 172 (init_st []%N [10;109;101;115;115;97;103;101;32;79;117;116;101;114;32;123;10;32;32;111;112;116;105;111;110;32;40;109;121;95;111;112;116;105;111;110;41;46;97;32;61;32;116;114;117;101;59;10;32;32;109;101;115;115;97;103;101;32;73;110;110;101;114;32;123;32;32;32;47;47;32;76;101;118;101;108;32;50;10;32;32;32;32;114;101;113;117;105;114;101;100;32;105;110;116;54;52;32;105;118;97;108;32;61;32;49;59;10;32;32;125;10;32;32;109;97;112;60;105;110;116;51;50;44;32;115;116;114;105;110;103;62;32;109;121;95;109;97;112;32;61;32;50;59;10;32;32;101;120;116;101;110;115;105;111;110;115;32;50;48;32;116;111;32;51;48;59;10;125]%N)) = Ok (mkBlock [79;117;116;101;114]%N [(VOption (mkOption [40;109;121;95;111;112;116;105;111;110;41;46;97]%N [116;114;117;101]%N [] None (mkMeta (mkPos []%N 19 3 3) (mkPos []%N 46 3 30))));(VMessage (mkBlock [73;110;110;101;114]%N [(VField (mkField false true false [105;110;116;54;52]%N [105;118;97;108]%N [49]%N [] [] None (mkMeta (mkPos []%N 83 5 5) (mkPos []%N 106 5 28))))] [] None (Some (mkComment [47;47;32;76;101;118;101;108;32;50]%N (mkMeta (mkPos []%N 68 4 21) (mkPos []%N 77 4 30)))) (mkMeta (mkPos []%N 50 4 3) (mkPos []%N 110 6 3))));(VMapField (mkMapField [105;110;116;51;50]%N [115;116;114;105;110;103]%N [109;121;95;109;97;112]%N [50]%N [] [] None (mkMeta (mkPos []%N 114 7 3) (mkPos []%N 143 7 32))));(VExtensions (mkExtensions [(mkRange [50;48]%N [51;48]%N)] [] [] None None (mkMeta (mkPos []%N 147 8 3) (mkPos []%N 166 8 22))))] [] None None (mkMeta (mkPos []%N 1 2 1) (mkPos []%N 168 9 1))). Proof. vm_compute. reflexivity. Qed.
Example c_message_92 : fst (ParseMessage true false 43 (init_st []%N [10;109;101;115;115;97;103;101;32;79;117;116;101;114;32;123;10;32;32;109;101;115;115;97;103;101;32;73;110;110;101;114;32;123;125;59;10;125;59;10]%N)) = Ok (mkBlock [79;117;116;101;114]%N [(VMessage (mkBlock [73;110;110;101;114]%N [] [] None None (mkMeta (mkPos []%N 19 3 3) (mkPos []%N 35 3 19))))] [] None None (mkMeta (mkPos []%N 1 2 1) (mkPos []%N 38 4 2))). Proof. vm_compute. reflexivity. Qed.
Example c_message_93 : fst (ParseMessage true false 41 (init_st []%N [10;109;101;115;115;97;103;101;32;79;117;116;101;114;32;123;10;32;32;109;101;115;115;97;103;101;32;73;110;110;101;114;32;123;125;10;125;10]%N)) = Ok (mkBlock [79;117;116;101;114]%N [(VMessage (mkBlock [73;110;110;101;114]%N [] [] None None (mkMeta (mkPos []%N 19 3 3) (mkPos []%N 34 3 18))))] [] None None (mkMeta (mkPos []%N 1 2 1) (mkPos []%N 36 4 1))). Proof. vm_compute. reflexivity. Qed.
Example c_service_94 : is_err (fst (ParseService false false (init_st []%N []%N))) = true. Proof. vm_compute. reflexivity. Qed. (*  *)
Example c_service_95 : fst (ParseService false false (init_st []%N [10;115;101;114;118;105;99;101;32;83;101;97;114;99;104;83;101;114;118;105;99;101;32;123;10;32;32;114;112;99;32;83;101;97;114;99;104;32;40;83;101;97;114;99;104;82;101;113;117;101;115;116;41;32;114;101;116;117;114;110;115;32;40;83;101;97;114;99;104;82;101;115;112;111;110;115;101;41;59;10;125;10]%N)) = Ok (mkBlock [83;101;97;114;99;104;83;101;114;118;105;99;101]%N [(VRPC (mkRPC [83;101;97;114;99;104]%N (mkRPCParam false [83;101;97;114;99;104;82;101;113;117;101;115;116]%N (mkMeta (mkPos []%N 38 3 14) (mkPos []%N 52 3 28))) (mkRPCParam false [83;101;97;114;99;104;82;101;115;112;111;110;115;101]%N (mkMeta (mkPos []%N 62 3 38) (mkPos []%N 77 3 53))) [] [] None None [] (mkMeta (mkPos []%N 27 3 3) (mkPos []%N 78 3 54))))] [] None None (mkMeta (mkPos []%N 1 2 1) (mkPos []%N 80 4 1))). Proof. vm_compute. reflexivity. Qed.
Example c_service_96 : fst (ParseService false false (init_st []%N [10;115;101;114;118;105;99;101;32;83;101;97;114;99;104;83;101;114;118;105;99;101;32;123;10;32;32;114;112;99;32;83;101;97;114;99;104;32;40;83;101;97;114;99;104;82;101;113;117;101;115;116;41;32;114;101;116;117;114;110;115;32;40;83;101;97;114;99;104;82;101;115;112;111;110;115;101;41;32;123;32;111;112;116;105;111;110;32;40;109;121;95;111;112;116;105;111;110;41;46;97;32;61;32;116;114;117;101;59;32;125;10;125;10]%N)) = Ok (mkBlock [83;101;97;114;99;104;83;101;114;118;105;99;101]%N [(VRPC (mkRPC [83;101;97;114;99;104]%N (mkRPCParam false [83;101;97;114;99;104;82;101;113;117;101;115;116]%N (mkMeta (mkPos []%N 38 3 14) (mkPos []%N 52 3 28))) (mkRPCParam false [83;101;97;114;99;104;82;101;115;112;111;110;115;101]%N (mkMeta (mkPos []%N 62 3 38) (mkPos []%N 77 3 53))) [(mkOption [40;109;121;95;111;112;116;105;111;110;41;46;97]%N [116;114;117;101]%N [] None (mkMeta (mkPos []%N 81 3 57) (mkPos []%N 108 3 84)))] [] None None [] (mkMeta (mkPos []%N 27 3 3) (mkPos []%N 110 3 86))))] [] None None (mkMeta (mkPos []%N 1 2 1) (mkPos []%N 112 4 1))). Proof. vm_compute. reflexivity. Qed.
Example c_service_97 : fst (ParseService false false (init_st []%N [10;115;101;114;118;105;99;101;32;83;101;97;114;99;104;83;101;114;118;105;99;101;32;123;10;32;32;114;112;99;32;83;101;97;114;99;104;32;40;83;101;97;114;99;104;82;101;113;117;101;115;116;41;32;114;101;116;117;114;110;115;32;40;83;101;97;114;99;104;82;101;115;112;111;110;115;101;41;32;123;32;10;9;111;112;116;105;111;110;32;40;109;121;95;111;112;116;105;111;110;41;46;97;32;61;32;116;114;117;101;59;32;10;9;111;112;116;105;111;110;32;40;109;121;95;111;112;116;105;111;110;41;46;98;32;61;32;102;97;108;115;101;59;10;32;32;125;10;125;10]%N)) = Ok (mkBlock [83;101;97;114;99;104;83;101;114;118;105;99;101]%N [(VRPC (mkRPC [83;101;97;114;99;104]%N (mkRPCParam false [83;101;97;114;99;104;82;101;113;117;101;115;116]%N (mkMeta (mkPos []%N 38 3 14) (mkPos []%N 52 3 28))) (mkRPCParam false [83;101;97;114;99;104;82;101;115;112;111;110;115;101]%N (mkMeta (mkPos []%N 62 3 38) (mkPos []%N 77 3 53))) [(mkOption [40;109;121;95;111;112;116;105;111;110;41;46;97]%N [116;114;117;101]%N [] None (mkMeta (mkPos []%N 83 4 2) (mkPos []%N 110 4 29)));(mkOption [40;109;121;95;111;112;116;105;111;110;41;46;98]%N [102;97;108;115;101]%N [] None (mkMeta (mkPos []%N 114 5 2) (mkPos []%N 142 5 30)))] [] None None [] (mkMeta (mkPos []%N 27 3 3) (mkPos []%N 146 6 3))))] [] None None (mkMeta (mkPos []%N 1 2 1) (mkPos []%N 148 7 1))). Proof. vm_compute. reflexivity. Qed.
Example c_service_98 : fst (ParseService false false (init_st []%N [10;47;47;32;73;116;101;109;83;101;114;118;105;99;101;32;105;115;32;97;32;115;101;114;118;105;99;101;32;116;111;32;109;97;110;97;103;101;32;105;116;101;109;115;46;10;115;101;114;118;105;99;101;32;73;116;101;109;83;101;114;118;105;99;101;32;123;10;32;32;32;32;47;47;32;67;114;101;97;116;101;85;115;101;114;73;116;101;109;32;105;115;32;97;32;109;101;116;104;111;100;32;116;111;32;99;114;101;97;116;101;32;97;32;117;115;101;114;39;115;32;105;116;101;109;46;10;32;32;32;32;114;112;99;32;67;114;101;97;116;101;85;115;101;114;73;116;101;109;40;67;114;101;97;116;101;85;115;101;114;73;116;101;109;82;101;113;117;101;115;116;41;32;114;101;116;117;114;110;115;32;40;97;103;103;114;101;103;97;116;101;115;112;98;46;85;115;101;114;73;116;101;109;65;103;103;114;101;103;97;116;101;41;32;123;125;10;10;32;32;32;32;47;47;32;85;112;100;97;116;101;85;115;101;114;73;116;101;109;32;105;115;32;97;32;109;101;116;104;111;100;32;116;111;32;117;112;100;97;116;101;32;97;32;117;115;101;114;39;115;32;105;116;101;109;46;10;32;32;32;32;114;112;99;32;85;112;100;97;116;101;85;115;101;114;73;116;101;109;40;85;112;100;97;116;101;85;115;101;114;73;116;101;109;82;101;113;117;101;115;116;41;32;114;101;116;117;114;110;115;32;40;101;110;116;105;116;105;101;115;112;98;46;85;115;101;114;73;116;101;109;41;32;123;125;10;125;10]%N)) = Ok (mkBlock [73;116;101;109;83;101;114;118;105;99;101]%N [(VRPC (mkRPC [67;114;101;97;116;101;85;115;101;114;73;116;101;109]%N (mkRPCParam false [67;114;101;97;116;101;85;115;101;114;73;116;101;109;82;101;113;117;101;115;116]%N (mkMeta (mkPos []%N 149 5 23) (mkPos []%N 171 5 45))) (mkRPCParam false [97;103;103;114;101;103;97;116;101;115;112;98;46;85;115;101;114;73;116;101;109;65;103;103;114;101;103;97;116;101]%N (mkMeta (mkPos []%N 181 5 55) (mkPos []%N 212 5 86))) [] [(mkComment [47;47;32;67;114;101;97;116;101;85;115;101;114;73;116;101;109;32;105;115;32;97;32;109;101;116;104;111;100;32;116;111;32;99;114;101;97;116;101;32;97;32;117;115;101;114;39;115;32;105;116;101;109;46]%N (mkMeta (mkPos []%N 72 4 5) (mkPos []%N 125 4 58)))] None None [] (mkMeta (mkPos []%N 131 5 5) (mkPos []%N 215 5 89))));(VRPC (mkRPC [85;112;100;97;116;101;85;115;101;114;73;116;101;109]%N (mkRPCParam false [85;112;100;97;116;101;85;115;101;114;73;116;101;109;82;101;113;117;101;115;116]%N (mkMeta (mkPos []%N 299 8 23) (mkPos []%N 321 8 45))) (mkRPCParam false [101;110;116;105;116;105;101;115;112;98;46;85;115;101;114;73;116;101;109]%N (mkMeta (mkPos []%N 331 8 55) (mkPos []%N 351 8 75))) [] [(mkComment [47;47;32;85;112;100;97;116;101;85;115;101;114;73;116;101;109;32;105;115;32;97;32;109;101;116;104;111;100;32;116;111;32;117;112;100;97;116;101;32;97;32;117;115;101;114;39;115;32;105;116;101;109;46]%N (mkMeta (mkPos []%N 222 7 5) (mkPos []%N 275 7 58)))] None None [] (mkMeta (mkPos []%N 281 8 5) (mkPos []%N 354 8 78))))] [] None None (mkMeta (mkPos []%N 46 3 1) (mkPos []%N 356 9 1))). Proof. vm_compute. reflexivity. Qed.
Example c_service_99 : fst (ParseService false false (init_st []%N [10;115;101;114;118;105;99;101;32;83;101;97;114;99;104;83;101;114;118;105;99;101;32;123;32;47;47;32;84;79;68;79;58;32;83;101;97;114;99;104;32;105;115;32;110;111;116;32;105;109;112;108;101;109;101;110;116;101;100;32;121;101;116;46;10;32;32;114;112;99;32;83;101;97;114;99;104;32;40;83;101;97;114;99;104;82;101;113;117;101;115;116;41;32;114;101;116;117;114;110;115;32;40;83;101;97;114;99;104;82;101;115;112;111;110;115;101;41;59;32;47;47;32;84;79;68;79;58;32;105;109;112;108;101;109;101;110;116;97;116;105;111;110;10;125;10]%N)) = Ok (mkBlock [83;101;97;114;99;104;83;101;114;118;105;99;101]%N [(VRPC (mkRPC [83;101;97;114;99;104]%N (mkRPCParam false [83;101;97;114;99;104;82;101;113;117;101;115;116]%N (mkMeta (mkPos []%N 78 3 14) (mkPos []%N 92 3 28))) (mkRPCParam false [83;101;97;114;99;104;82;101;115;112;111;110;115;101]%N (mkMeta (mkPos []%N 102 3 38) (mkPos []%N 117 3 53))) [] [] (Some (mkComment [47;47;32;84;79;68;79;58;32;105;109;112;108;101;109;101;110;116;97;116;105;111;110]%N (mkMeta (mkPos []%N 120 3 56) (mkPos []%N 142 3 78)))) None [] (mkMeta (mkPos []%N 67 3 3) (mkPos []%N 118 3 54))))] [] None (Some (mkComment [47;47;32;84;79;68;79;58;32;83;101;97;114;99;104;32;105;115;32;110;111;116;32;105;109;112;108;101;109;101;110;116;101;100;32;121;101;116;46]%N (mkMeta (mkPos []%N 25 2 25) (mkPos []%N 63 2 63)))) (mkMeta (mkPos []%N 1 2 1) (mkPos []%N 144 4 1))). Proof. vm_compute. reflexivity. Qed.
Example c_service_100 : fst (ParseService false false (init_st []%N [10;115;101;114;118;105;99;101;32;83;101;97;114;99;104;83;101;114;118;105;99;101;32;123;10;32;32;114;112;99;32;83;101;97;114;99;104;32;40;83;101;97;114;99;104;82;101;113;117;101;115;116;41;32;114;101;116;117;114;110;115;32;40;83;101;97;114;99;104;82;101;115;112;111;110;115;101;41;59;10;32;32;47;47;32;108;97;115;116;32;99;111;109;109;101;110;116;10;125;10]%N)) = Ok (mkBlock [83;101;97;114;99;104;83;101;114;118;105;99;101]%N [(VRPC (mkRPC [83;101;97;114;99;104]%N (mkRPCParam false [83;101;97;114;99;104;82;101;113;117;101;115;116]%N (mkMeta (mkPos []%N 38 3 14) (mkPos []%N 52 3 28))) (mkRPCParam false [83;101;97;114;99;104;82;101;115;112;111;110;115;101]%N (mkMeta (mkPos []%N 62 3 38) (mkPos []%N 77 3 53))) [] [] None None [] (mkMeta (mkPos []%N 27 3 3) (mkPos []%N 78 3 54))))] [] None None (mkMeta (mkPos []%N 1 2 1) (mkPos []%N 98 5 1))). Proof. vm_compute. reflexivity. Qed.
Example c_service_101 : fst (ParseService false true (init_st []%N [10;115;101;114;118;105;99;101;32;83;101;97;114;99;104;83;101;114;118;105;99;101;32;123;10;32;32;114;112;99;32;83;101;97;114;99;104;32;40;83;101;97;114;99;104;82;101;113;117;101;115;116;41;32;114;101;116;117;114;110;115;32;40;83;101;97;114;99;104;82;101;115;112;111;110;115;101;41;59;10;32;32;47;47;32;108;97;115;116;32;102;105;114;115;116;32;99;111;109;109;101;110;116;10;32;32;47;42;32;108;97;115;116;32;115;101;99;111;110;100;32;99;111;109;109;101;110;116;32;42;47;10;125;10]%N)) = Ok (mkBlock [83;101;97;114;99;104;83;101;114;118;105;99;101]%N [(VRPC (mkRPC [83;101;97;114;99;104]%N (mkRPCParam false [83;101;97;114;99;104;82;101;113;117;101;115;116]%N (mkMeta (mkPos []%N 38 3 14) (mkPos []%N 52 3 28))) (mkRPCParam false [83;101;97;114;99;104;82;101;115;112;111;110;115;101]%N (mkMeta (mkPos []%N 62 3 38) (mkPos []%N 77 3 53))) [] [] None None [] (mkMeta (mkPos []%N 27 3 3) (mkPos []%N 78 3 54))));(VComment (mkComment [47;47;32;108;97;115;116;32;102;105;114;115;116;32;99;111;109;109;101;110;116]%N (mkMeta (mkPos []%N 82 4 3) (mkPos []%N 102 4 23))));(VComment (mkComment [47;42;32;108;97;115;116;32;115;101;99;111;110;100;32;99;111;109;109;101;110;116;32;42;47]%N (mkMeta (mkPos []%N 106 5 3) (mkPos []%N 130 5 27))))] [] None None (mkMeta (mkPos []%N 1 2 1) (mkPos []%N 132 6 1))). Proof. vm_compute. reflexivity. Qed.
Example c_service_102 : fst (ParseService true false (init_st []%N [10;115;101;114;118;105;99;101;32;83;101;97;114;99;104;83;101;114;118;105;99;101;32;123;10;32;32;114;112;99;32;83;101;97;114;99;104;32;40;83;101;97;114;99;104;82;101;113;117;101;115;116;41;32;114;101;116;117;114;110;115;32;40;83;101;97;114;99;104;82;101;115;112;111;110;115;101;41;32;123;125;59;10;125;59;10]%N)) = Ok (mkBlock [83;101;97;114;99;104;83;101;114;118;105;99;101]%N [(VRPC (mkRPC [83;101;97;114;99;104]%N (mkRPCParam false [83;101;97;114;99;104;82;101;113;117;101;115;116]%N (mkMeta (mkPos []%N 38 3 14) (mkPos []%N 52 3 28))) (mkRPCParam false [83;101;97;114;99;104;82;101;115;112;111;110;115;101]%N (mkMeta (mkPos []%N 62 3 38) (mkPos []%N 77 3 53))) [] [] None None [] (mkMeta (mkPos []%N 27 3 3) (mkPos []%N 81 3 57))))] [] None None (mkMeta (mkPos []%N 1 2 1) (mkPos []%N 84 4 2))). Proof. vm_compute. reflexivity. Qed.
Example c_service_103 : fst (ParseService true false (init_st []%N [10;115;101;114;118;105;99;101;32;83;101;97;114;99;104;83;101;114;118;105;99;101;32;123;10;32;32;114;112;99;32;83;101;97;114;99;104;32;40;83;101;97;114;99;104;82;101;113;117;101;115;116;41;32;114;101;116;117;114;110;115;32;40;83;101;97;114;99;104;82;101;115;112;111;110;115;101;41;32;123;125;10;125;10]%N)) = Ok (mkBlock [83;101;97;114;99;104;83;101;114;118;105;99;101]%N [(VRPC (mkRPC [83;101;97;114;99;104]%N (mkRPCParam false [83;101;97;114;99;104;82;101;113;117;101;115;116]%N (mkMeta (mkPos []%N 38 3 14) (mkPos []%N 52 3 28))) (mkRPCParam false [83;101;97;114;99;104;82;101;115;112;111;110;115;101]%N (mkMeta (mkPos []%N 62 3 38) (mkPos []%N 77 3 53))) [] [] None None [] (mkMeta (mkPos []%N 27 3 3) (mkPos []%N 80 3 56))))] [] None None (mkMeta (mkPos []%N 1 2 1) (mkPos []%N 82 4 1))). Proof. vm_compute. reflexivity. Qed.
Example c_service_104 : fst (ParseService false false (init_st []%N [10;115;101;114;118;105;99;101;32;83;101;97;114;99;104;83;101;114;118;105;99;101;32;123;10;32;32;114;112;99;32;71;101;116;65;108;108;40;71;101;116;82;101;113;117;101;115;116;41;32;114;101;116;117;114;110;115;40;71;101;116;82;101;112;108;121;41;32;123;32;47;47;32;103;101;116;32;116;104;101;32;103;108;111;98;97;108;32;97;100;100;114;101;115;115;32;116;97;98;108;101;10;32;32;32;32;111;112;116;105;111;110;40;114;101;113;117;101;115;116;114;101;112;108;121;46;78;97;116;115;41;46;83;117;98;106;101;99;116;32;61;32;34;103;101;116;46;97;100;100;114;115;34;59;10;32;32;125;10;125;10]%N)) = Ok (mkBlock [83;101;97;114;99;104;83;101;114;118;105;99;101]%N [(VRPC (mkRPC [71;101;116;65;108;108]%N (mkRPCParam false [71;101;116;82;101;113;117;101;115;116]%N (mkMeta (mkPos []%N 37 3 13) (mkPos []%N 48 3 24))) (mkRPCParam false [71;101;116;82;101;112;108;121]%N (mkMeta (mkPos []%N 57 3 33) (mkPos []%N 66 3 42))) [(mkOption [40;114;101;113;117;101;115;116;114;101;112;108;121;46;78;97;116;115;41;46;83;117;98;106;101;99;116]%N [34;103;101;116;46;97;100;100;114;115;34]%N [] None (mkMeta (mkPos []%N 106 4 5) (mkPos []%N 153 4 52)))] [] None (Some (mkComment [47;47;32;103;101;116;32;116;104;101;32;103;108;111;98;97;108;32;97;100;100;114;101;115;115;32;116;97;98;108;101]%N (mkMeta (mkPos []%N 70 3 46) (mkPos []%N 100 3 76)))) [] (mkMeta (mkPos []%N 27 3 3) (mkPos []%N 157 5 3))))] [] None None (mkMeta (mkPos []%N 1 2 1) (mkPos []%N 159 6 1))). Proof. vm_compute. reflexivity. Qed.
Example c_service_105 : fst (ParseService false false (init_st []%N [10;115;101;114;118;105;99;101;32;83;101;97;114;99;104;83;101;114;118;105;99;101;32;123;10;32;32;114;112;99;32;71;101;116;65;108;108;32;40;71;101;116;82;101;113;117;101;115;116;41;32;47;47;32;112;114;111;116;111;108;105;110;116;58;100;105;115;97;98;108;101;58;116;104;105;115;32;82;80;67;95;78;65;77;69;83;95;85;80;80;69;82;95;67;65;77;69;76;95;67;65;83;69;10;32;32;114;101;116;117;114;110;115;32;47;42;32;115;111;109;101;32;105;110;116;101;114;108;101;118;101;100;32;99;111;109;109;101;110;116;32;42;47;32;40;71;101;116;82;101;112;108;121;41;32;47;42;32;115;111;109;101;32;105;110;116;101;114;108;101;118;101;100;32;99;111;109;109;101;110;116;50;32;42;47;32;123;10;9;47;47;32;111;112;116;105;111;110;32;104;97;115;32;97;32;99;111;109;109;101;110;116;10;32;32;32;32;111;112;116;105;111;110;40;114;101;113;117;101;115;116;114;101;112;108;121;46;78;97;116;115;41;46;83;117;98;106;101;99;116;32;61;32;34;103;101;116;46;97;100;100;114;115;34;59;10;32;32;125;10;125;10]%N)) = Ok (mkBlock [83;101;97;114;99;104;83;101;114;118;105;99;101]%N [(VRPC (mkRPC [71;101;116;65;108;108]%N (mkRPCParam false [71;101;116;82;101;113;117;101;115;116]%N (mkMeta (mkPos []%N 38 3 14) (mkPos []%N 49 3 25))) (mkRPCParam false [71;101;116;82;101;112;108;121]%N (mkMeta (mkPos []%N 144 4 41) (mkPos []%N 153 4 50))) [(mkOption [40;114;101;113;117;101;115;116;114;101;112;108;121;46;78;97;116;115;41;46;83;117;98;106;101;99;116]%N [34;103;101;116;46;97;100;100;114;115;34]%N [] None (mkMeta (mkPos []%N 217 6 5) (mkPos []%N 264 6 52)))] [] None None [(mkComment [47;47;32;112;114;111;116;111;108;105;110;116;58;100;105;115;97;98;108;101;58;116;104;105;115;32;82;80;67;95;78;65;77;69;83;95;85;80;80;69;82;95;67;65;77;69;76;95;67;65;83;69]%N (mkMeta (mkPos []%N 51 3 27) (mkPos []%N 102 3 78)));(mkComment [47;42;32;115;111;109;101;32;105;110;116;101;114;108;101;118;101;100;32;99;111;109;109;101;110;116;32;42;47]%N (mkMeta (mkPos []%N 114 4 11) (mkPos []%N 142 4 39)));(mkComment [47;42;32;115;111;109;101;32;105;110;116;101;114;108;101;118;101;100;32;99;111;109;109;101;110;116;50;32;42;47]%N (mkMeta (mkPos []%N 155 4 52) (mkPos []%N 184 4 81)))] (mkMeta (mkPos []%N 27 3 3) (mkPos []%N 268 7 3))))] [] None None (mkMeta (mkPos []%N 1 2 1) (mkPos []%N 270 8 1))). Proof. vm_compute. reflexivity. Qed.
Example c_service_106 : fst (ParseService false false (init_st []%N [10;115;101;114;118;105;99;101;32;77;121;83;101;114;118;105;99;101;32;123;10;32;32;111;112;116;105;111;110;40;115;101;114;118;105;99;101;95;100;101;115;99;114;105;112;116;105;111;110;41;32;61;32;34;100;101;115;99;114;105;112;116;105;111;110;34;59;59;10;125;10]%N)) = Ok (mkBlock [77;121;83;101;114;118;105;99;101]%N [(VOption (mkOption [40;115;101;114;118;105;99;101;95;100;101;115;99;114;105;112;116;105;111;110;41]%N [34;100;101;115;99;114;105;112;116;105;111;110;34]%N [] None (mkMeta (mkPos []%N 23 3 3) (mkPos []%N 66 3 46))));(VEmpty (mkEmpty None))] [] None None (mkMeta (mkPos []%N 1 2 1) (mkPos []%N 69 4 1))). Proof. vm_compute. reflexivity. Qed.
Example c_reserved_107 : is_err (fst (ParseReserved (init_st []%N []%N))) = true. Proof. vm_compute. reflexivity. Qed. (*  *)
Example c_reserved_108 : is_err (fst (ParseReserved (init_st []%N [114;101;115;101;114;118;101;100;32;50;44;32;49;53;44;32;57;32;49;49;59]%N))) = true. Proof. vm_compute. reflexivity. Qed. (*  *)
Example c_reserved_109 : is_err (fst (ParseReserved (init_st []%N [114;101;115;101;114;118;101;100;32;50;44;32;34;102;111;111;34;44;32;57;32;116;111;32;49;49;59]%N))) = true. Proof. vm_compute. reflexivity. Qed. (*  *)
Example c_reserved_110 : fst (ParseReserved (init_st []%N [114;101;115;101;114;118;101;100;32;50;44;32;49;53;44;32;57;32;116;111;32;49;49;59]%N)) = Ok (mkReserved [(mkRange [50]%N []%N);(mkRange [49;53]%N []%N);(mkRange [57]%N [49;49]%N)] [] [] None (mkMeta (mkPos []%N 0 1 1) (mkPos []%N 23 1 24))). Proof. vm_compute. reflexivity. Qed.
Example c_reserved_111 : fst (ParseReserved (init_st []%N [114;101;115;101;114;118;101;100;32;34;102;111;111;34;44;32;34;98;97;114;34;59]%N)) = Ok (mkReserved [] [[34;102;111;111;34]%N;[34;98;97;114;34]%N] [] None (mkMeta (mkPos []%N 0 1 1) (mkPos []%N 21 1 22))). Proof. vm_compute. reflexivity. Qed.
Example c_reserved_112 : fst (ParseReserved (init_st []%N [114;101;115;101;114;118;101;100;32;57;32;116;111;32;109;97;120;59]%N)) = Ok (mkReserved [(mkRange [57]%N [109;97;120]%N)] [] [] None (mkMeta (mkPos []%N 0 1 1) (mkPos []%N 17 1 18))). Proof. vm_compute. reflexivity. Qed.
Example c_reserved_113 : fst (ParseReserved (init_st []%N [114;101;115;101;114;118;101;100;32;102;111;111;44;32;98;97;114;59]%N)) = Ok (mkReserved [] [[102;111;111]%N;[98;97;114]%N] [] None (mkMeta (mkPos []%N 0 1 1) (mkPos []%N 17 1 18))). Proof. vm_compute. reflexivity. Qed.
Example c_reserved_114 : fst (ParseReserved (init_st []%N [114;101;115;101;114;118;101;100;10;9;34;115;107;105;112;112;101;100;34;10;9;34;105;103;110;111;114;101;95;101;109;112;116;121;34;10;59]%N)) = Ok (mkReserved [] [[34;115;107;105;112;112;101;100;34]%N;[34;105;103;110;111;114;101;95;101;109;112;116;121;34]%N] [] None (mkMeta (mkPos []%N 0 1 1) (mkPos []%N 36 4 1))). Proof. vm_compute. reflexivity. Qed.
Example c_reserved_115 : fst (ParseReserved (init_st []%N [114;101;115;101;114;118;101;100;32;34;102;105;101;108;100;49;34;44;32;10;9;34;102;105;101;108;100;50;34;10;9;34;102;105;101;108;100;51;34;44;32;34;102;105;101;108;100;52;34;59]%N)) = Ok (mkReserved [] [[34;102;105;101;108;100;49;34]%N;[34;102;105;101;108;100;50;34]%N;[34;102;105;101;108;100;51;34]%N;[34;102;105;101;108;100;52;34]%N] [] None (mkMeta (mkPos []%N 0 1 1) (mkPos []%N 49 3 20))). Proof. vm_compute. reflexivity. Qed.
Example c_extensions_116 : is_err (fst (ParseExtensions (init_st []%N []%N))) = true. Proof. vm_compute. reflexivity. Qed. (*  *)
Example c_extensions_117 : is_err (fst (ParseExtensions (init_st []%N [101;120;116;101;110;115;105;111;110;115;32;50;44;32;49;53;44;32;57;32;49;49;59]%N))) = true. Proof. vm_compute. reflexivity. Qed. (*  *)
Example c_extensions_118 : is_err (fst (ParseExtensions (init_st []%N [101;120;116;101;110;115;105;111;110;115;32;50;44;32;34;102;111;111;34;44;32;57;32;116;111;32;49;49;59]%N))) = true. Proof. vm_compute. reflexivity. Qed. (*  *)
Example c_extensions_119 : fst (ParseExtensions (init_st []%N [101;120;116;101;110;115;105;111;110;115;32;49;48;48;32;116;111;32;49;57;57;59]%N)) = Ok (mkExtensions [(mkRange [49;48;48]%N [49;57;57]%N)] [] [] None None (mkMeta (mkPos []%N 0 1 1) (mkPos []%N 21 1 22))). Proof. vm_compute. reflexivity. Qed.
Example c_extensions_120 : fst (ParseExtensions (init_st []%N [101;120;116;101;110;115;105;111;110;115;32;52;44;32;50;48;32;116;111;32;109;97;120;59]%N)) = Ok (mkExtensions [(mkRange [52]%N []%N);(mkRange [50;48]%N [109;97;120]%N)] [] [] None None (mkMeta (mkPos []%N 0 1 1) (mkPos []%N 23 1 24))). Proof. vm_compute. reflexivity. Qed.
Example c_extensions_121 : fst (ParseExtensions (init_st []%N [101;120;116;101;110;115;105;111;110;115;32;52;32;116;111;32;49;48;48;48;32;91;10;32;32;32;32;100;101;99;108;97;114;97;116;105;111;110;32;61;32;123;10;32;32;32;32;32;32;110;117;109;98;101;114;58;32;52;44;10;32;32;32;32;32;32;102;117;108;108;95;110;97;109;101;58;32;34;46;109;121;46;112;97;99;107;97;103;101;46;101;118;101;110;116;95;97;110;110;111;116;97;116;105;111;110;115;34;44;10;32;32;32;32;32;32;116;121;112;101;58;32;34;46;108;111;103;115;46;112;114;111;116;111;46;86;97;108;105;100;97;116;105;111;110;65;110;110;111;116;97;116;105;111;110;115;34;44;10;32;32;32;32;32;32;114;101;112;101;97;116;101;100;58;32;116;114;117;101;32;125;44;10;32;32;32;32;100;101;99;108;97;114;97;116;105;111;110;32;61;32;123;10;32;32;32;32;32;32;110;117;109;98;101;114;58;32;57;57;57;44;10;32;32;32;32;32;32;102;117;108;108;95;110;97;109;101;58;32;34;46;102;111;111;46;112;97;99;107;97;103;101;46;98;97;114;34;44;10;32;32;32;32;32;32;116;121;112;101;58;32;34;105;110;116;51;50;34;125;93;59]%N)) = Ok (mkExtensions [(mkRange [52]%N [49;48;48;48]%N)] [(mkDeclaration [52]%N [34;46;109;121;46;112;97;99;107;97;103;101;46;101;118;101;110;116;95;97;110;110;111;116;97;116;105;111;110;115;34]%N [34;46;108;111;103;115;46;112;114;111;116;111;46;86;97;108;105;100;97;116;105;111;110;65;110;110;111;116;97;116;105;111;110;115;34]%N false true [] None None (mkMeta (mkPos []%N 27 2 5) (mkPos []%N 180 6 22)));(mkDeclaration [57;57;57]%N [34;46;102;111;111;46;112;97;99;107;97;103;101;46;98;97;114;34]%N [34;105;110;116;51;50;34]%N false false [] None None (mkMeta (mkPos []%N 187 7 5) (mkPos []%N 278 10 20)))] [] None None (mkMeta (mkPos []%N 0 1 1) (mkPos []%N 280 10 22))). Proof. vm_compute. reflexivity. Qed.
Example c_declaration_122 : is_err (fst (ParseDeclaration (init_st []%N []%N))) = true. Proof. vm_compute. reflexivity. Qed. (*  *)
Example c_declaration_123 : fst (ParseDeclaration (init_st []%N [100;101;99;108;97;114;97;116;105;111;110;32;61;32;123;10;32;32;32;32;32;32;110;117;109;98;101;114;58;32;52;44;10;32;32;32;32;32;32;102;117;108;108;95;110;97;109;101;58;32;34;46;109;121;46;112;97;99;107;97;103;101;46;101;118;101;110;116;95;97;110;110;111;116;97;116;105;111;110;115;34;44;10;32;32;32;32;32;32;116;121;112;101;58;32;34;46;108;111;103;115;46;112;114;111;116;111;46;86;97;108;105;100;97;116;105;111;110;65;110;110;111;116;97;116;105;111;110;115;34;44;10;32;32;32;32;32;32;114;101;112;101;97;116;101;100;58;32;116;114;117;101;32;125]%N)) = Ok (mkDeclaration [52]%N [34;46;109;121;46;112;97;99;107;97;103;101;46;101;118;101;110;116;95;97;110;110;111;116;97;116;105;111;110;115;34]%N [34;46;108;111;103;115;46;112;114;111;116;111;46;86;97;108;105;100;97;116;105;111;110;65;110;110;111;116;97;116;105;111;110;115;34]%N false true [] None None (mkMeta (mkPos []%N 0 1 1) (mkPos []%N 153 5 22))). Proof. vm_compute. reflexivity. Qed.
Example c_declaration_124 : fst (ParseDeclaration (init_st []%N [100;101;99;108;97;114;97;116;105;111;110;32;61;32;123;10;32;32;32;32;32;32;110;117;109;98;101;114;58;32;53;48;48;44;10;32;32;32;32;32;32;102;117;108;108;95;110;97;109;101;58;32;34;46;109;121;46;112;97;99;107;97;103;101;46;101;118;101;110;116;95;97;110;110;111;116;97;116;105;111;110;115;34;44;10;32;32;32;32;32;32;116;121;112;101;58;32;34;46;108;111;103;115;46;112;114;111;116;111;46;86;97;108;105;100;97;116;105;111;110;65;110;110;111;116;97;116;105;111;110;115;34;44;10;32;32;32;32;32;32;114;101;115;101;114;118;101;100;58;32;116;114;117;101;32;125]%N)) = Ok (mkDeclaration [53;48;48]%N [34;46;109;121;46;112;97;99;107;97;103;101;46;101;118;101;110;116;95;97;110;110;111;116;97;116;105;111;110;115;34]%N [34;46;108;111;103;115;46;112;114;111;116;111;46;86;97;108;105;100;97;116;105;111;110;65;110;110;111;116;97;116;105;111;110;115;34]%N true false [] None None (mkMeta (mkPos []%N 0 1 1) (mkPos []%N 155 5 22))). Proof. vm_compute. reflexivity. Qed.
Example c_proto_125 : fst (ParseProto false false 3 (init_st []%N []%N)) = Ok (mkProto None None [] []%N). Proof. vm_compute. reflexivity. Qed.
Example c_proto_126 : fst (ParseProto false false 423 (init_st [111;102;102;105;99;105;97;108;46;112;114;111;116;111]%N [10;115;121;110;116;97;120;32;61;32;34;112;114;111;116;111;51;34;59;10;105;109;112;111;114;116;32;112;117;98;108;105;99;32;34;111;116;104;101;114;46;112;114;111;116;111;34;59;10;111;112;116;105;111;110;32;106;97;118;97;95;112;97;99;107;97;103;101;32;61;32;34;99;111;109;46;101;120;97;109;112;108;101;46;102;111;111;34;59;10;101;110;117;109;32;69;110;117;109;65;108;108;111;119;105;110;103;65;108;105;97;115;32;123;10;32;32;111;112;116;105;111;110;32;97;108;108;111;119;95;97;108;105;97;115;32;61;32;116;114;117;101;59;10;32;32;85;78;75;78;79;87;78;32;61;32;48;59;10;32;32;83;84;65;82;84;69;68;32;61;32;49;59;10;32;32;82;85;78;78;73;78;71;32;61;32;50;32;91;40;99;117;115;116;111;109;95;111;112;116;105;111;110;41;32;61;32;34;104;101;108;108;111;32;119;111;114;108;100;34;93;59;10;125;10;109;101;115;115;97;103;101;32;111;117;116;101;114;32;123;10;32;32;111;112;116;105;111;110;32;40;109;121;95;111;112;116;105;111;110;41;46;97;32;61;32;116;114;117;101;59;10;32;32;109;101;115;115;97;103;101;32;105;110;110;101;114;32;123;10;32;32;32;32;105;110;116;54;52;32;105;118;97;108;32;61;32;49;59;10;32;32;125;10;32;32;114;101;112;101;97;116;101;100;32;105;110;110;101;114;32;105;110;110;101;114;95;109;101;115;115;97;103;101;32;61;32;50;59;10;32;32;69;110;117;109;65;108;108;111;119;105;110;103;65;108;105;97;115;32;101;110;117;109;95;102;105;101;108;100;32;61;51;59;10;32;32;109;97;112;60;105;110;116;51;50;44;32;115;116;114;105;110;103;62;32;109;121;95;109;97;112;32;61;32;52;59;10;125;10]%N)) = Ok (mkProto (Some (mkSyntax [112;114;111;116;111;51]%N [34;112;114;111;116;111;51;34]%N [] None (mkMeta (mkPos [111;102;102;105;99;105;97;108;46;112;114;111;116;111]%N 1 2 1) (mkPos [111;102;102;105;99;105;97;108;46;112;114;111;116;111]%N 18 2 18)))) None [(VImport (mkImport ImportModifierPublic [34;111;116;104;101;114;46;112;114;111;116;111;34]%N [] None (mkMeta (mkPos [111;102;102;105;99;105;97;108;46;112;114;111;116;111]%N 20 3 1) (mkPos [111;102;102;105;99;105;97;108;46;112;114;111;116;111]%N 47 3 28))));(VOption (mkOption [106;97;118;97;95;112;97;99;107;97;103;101]%N [34;99;111;109;46;101;120;97;109;112;108;101;46;102;111;111;34]%N [] None (mkMeta (mkPos [111;102;102;105;99;105;97;108;46;112;114;111;116;111]%N 49 4 1) (mkPos [111;102;102;105;99;105;97;108;46;112;114;111;116;111]%N 88 4 40))));(VEnum (mkBlock [69;110;117;109;65;108;108;111;119;105;110;103;65;108;105;97;115]%N [(VOption (mkOption [97;108;108;111;119;95;97;108;105;97;115]%N [116;114;117;101]%N [] None (mkMeta (mkPos [111;102;102;105;99;105;97;108;46;112;114;111;116;111]%N 117 6 3) (mkPos [111;102;102;105;99;105;97;108;46;112;114;111;116;111]%N 142 6 28))));(VEnumField (mkEnumField [85;78;75;78;79;87;78]%N [48]%N [] [] None (mkMeta (mkPos [111;102;102;105;99;105;97;108;46;112;114;111;116;111]%N 146 7 3) (mkPos [111;102;102;105;99;105;97;108;46;112;114;111;116;111]%N 157 7 14))));(VEnumField (mkEnumField [83;84;65;82;84;69;68]%N [49]%N [] [] None (mkMeta (mkPos [111;102;102;105;99;105;97;108;46;112;114;111;116;111]%N 161 8 3) (mkPos [111;102;102;105;99;105;97;108;46;112;114;111;116;111]%N 172 8 14))));(VEnumField (mkEnumField [82;85;78;78;73;78;71]%N [50]%N [(mkEnumValueOption [40;99;117;115;116;111;109;95;111;112;116;105;111;110;41]%N [34;104;101;108;108;111;32;119;111;114;108;100;34]%N)] [] None (mkMeta (mkPos [111;102;102;105;99;105;97;108;46;112;114;111;116;111]%N 176 9 3) (mkPos [111;102;102;105;99;105;97;108;46;112;114;111;116;111]%N 221 9 48))))] [] None None (mkMeta (mkPos [111;102;102;105;99;105;97;108;46;112;114;111;116;111]%N 90 5 1) (mkPos [111;102;102;105;99;105;97;108;46;112;114;111;116;111]%N 223 10 1))));(VMessage (mkBlock [111;117;116;101;114]%N [(VOption (mkOption [40;109;121;95;111;112;116;105;111;110;41;46;97]%N [116;114;117;101]%N [] None (mkMeta (mkPos [111;102;102;105;99;105;97;108;46;112;114;111;116;111]%N 243 12 3) (mkPos [111;102;102;105;99;105;97;108;46;112;114;111;116;111]%N 270 12 30))));(VMessage (mkBlock [105;110;110;101;114]%N [(VField (mkField false false false [105;110;116;54;52]%N [105;118;97;108]%N [49]%N [] [] None (mkMeta (mkPos [111;102;102;105;99;105;97;108;46;112;114;111;116;111]%N 294 14 5) (mkPos [111;102;102;105;99;105;97;108;46;112;114;111;116;111]%N 308 14 19))))] [] None None (mkMeta (mkPos [111;102;102;105;99;105;97;108;46;112;114;111;116;111]%N 274 13 3) (mkPos [111;102;102;105;99;105;97;108;46;112;114;111;116;111]%N 312 15 3))));(VField (mkField true false false [105;110;110;101;114]%N [105;110;110;101;114;95;109;101;115;115;97;103;101]%N [50]%N [] [] None (mkMeta (mkPos [111;102;102;105;99;105;97;108;46;112;114;111;116;111]%N 316 16 3) (mkPos [111;102;102;105;99;105;97;108;46;112;114;111;116;111]%N 348 16 35))));(VField (mkField false false false [69;110;117;109;65;108;108;111;119;105;110;103;65;108;105;97;115]%N [101;110;117;109;95;102;105;101;108;100]%N [51]%N [] [] None (mkMeta (mkPos [111;102;102;105;99;105;97;108;46;112;114;111;116;111]%N 352 17 3) (mkPos [111;102;102;105;99;105;97;108;46;112;114;111;116;111]%N 383 17 34))));(VMapField (mkMapField [105;110;116;51;50]%N [115;116;114;105;110;103]%N [109;121;95;109;97;112]%N [52]%N [] [] None (mkMeta (mkPos [111;102;102;105;99;105;97;108;46;112;114;111;116;111]%N 387 18 3) (mkPos [111;102;102;105;99;105;97;108;46;112;114;111;116;111]%N 416 18 32))))] [] None None (mkMeta (mkPos [111;102;102;105;99;105;97;108;46;112;114;111;116;111]%N 225 11 1) (mkPos [111;102;102;105;99;105;97;108;46;112;114;111;116;111]%N 418 19 1))))] [111;102;102;105;99;105;97;108;46;112;114;111;116;111]%N). Proof. vm_compute. reflexivity. Qed.
Example c_proto_127 : fst (ParseProto false false 104 (init_st [115;101;114;118;105;99;101;46;112;114;111;116;111]%N [10;115;121;110;116;97;120;32;61;32;34;112;114;111;116;111;51;34;59;10;115;101;114;118;105;99;101;32;83;101;97;114;99;104;83;101;114;118;105;99;101;32;123;10;32;32;114;112;99;32;83;101;97;114;99;104;32;40;83;101;97;114;99;104;82;101;113;117;101;115;116;41;32;114;101;116;117;114;110;115;32;40;83;101;97;114;99;104;82;101;115;112;111;110;115;101;41;59;10;125;10]%N)) = Ok (mkProto (Some (mkSyntax [112;114;111;116;111;51]%N [34;112;114;111;116;111;51;34]%N [] None (mkMeta (mkPos [115;101;114;118;105;99;101;46;112;114;111;116;111]%N 1 2 1) (mkPos [115;101;114;118;105;99;101;46;112;114;111;116;111]%N 18 2 18)))) None [(VService (mkBlock [83;101;97;114;99;104;83;101;114;118;105;99;101]%N [(VRPC (mkRPC [83;101;97;114;99;104]%N (mkRPCParam false [83;101;97;114;99;104;82;101;113;117;101;115;116]%N (mkMeta (mkPos [115;101;114;118;105;99;101;46;112;114;111;116;111]%N 57 4 14) (mkPos [115;101;114;118;105;99;101;46;112;114;111;116;111]%N 71 4 28))) (mkRPCParam false [83;101;97;114;99;104;82;101;115;112;111;110;115;101]%N (mkMeta (mkPos [115;101;114;118;105;99;101;46;112;114;111;116;111]%N 81 4 38) (mkPos [115;101;114;118;105;99;101;46;112;114;111;116;111]%N 96 4 53))) [] [] None None [] (mkMeta (mkPos [115;101;114;118;105;99;101;46;112;114;111;116;111]%N 46 4 3) (mkPos [115;101;114;118;105;99;101;46;112;114;111;116;111]%N 97 4 54))))] [] None None (mkMeta (mkPos [115;101;114;118;105;99;101;46;112;114;111;116;111]%N 20 3 1) (mkPos [115;101;114;118;105;99;101;46;112;114;111;116;111]%N 99 5 1))))] [115;101;114;118;105;99;101;46;112;114;111;116;111]%N). Proof. vm_compute. reflexivity. Qed.
Example c_proto_128 : fst (ParseProto false false 353 (init_st [99;111;109;109;101;110;116;115;46;112;114;111;116;111]%N [10;47;47;32;115;121;110;116;97;120;10;47;42;10;115;121;110;116;97;120;50;10;42;47;10;115;121;110;116;97;120;32;61;32;34;112;114;111;116;111;51;34;59;10;47;47;32;105;109;112;111;114;116;10;105;109;112;111;114;116;32;112;117;98;108;105;99;32;34;111;116;104;101;114;46;112;114;111;116;111;34;59;10;47;42;32;112;97;99;107;97;103;101;32;42;47;10;112;97;99;107;97;103;101;32;102;111;111;46;98;97;114;59;10;47;47;32;111;112;116;105;111;110;10;111;112;116;105;111;110;32;106;97;118;97;95;112;97;99;107;97;103;101;32;61;32;34;99;111;109;46;101;120;97;109;112;108;101;46;102;111;111;34;59;10;47;47;32;109;101;115;115;97;103;101;10;109;101;115;115;97;103;101;32;111;117;116;101;114;32;123;10;125;10;47;47;32;101;110;117;109;10;101;110;117;109;32;69;110;117;109;65;108;108;111;119;105;110;103;65;108;105;97;115;32;123;10;32;32;111;112;116;105;111;110;32;97;108;108;111;119;95;97;108;105;97;115;32;61;32;116;114;117;101;59;10;125;10;47;47;32;115;101;114;118;105;99;101;10;115;101;114;118;105;99;101;32;83;101;97;114;99;104;83;101;114;118;105;99;101;32;123;10;32;32;114;112;99;32;83;101;97;114;99;104;32;40;83;101;97;114;99;104;82;101;113;117;101;115;116;41;32;114;101;116;117;114;110;115;32;40;83;101;97;114;99;104;82;101;115;112;111;110;115;101;41;59;10;125;10]%N)) = Ok (mkProto (Some (mkSyntax [112;114;111;116;111;51]%N [34;112;114;111;116;111;51;34]%N [(mkComment [47;47;32;115;121;110;116;97;120]%N (mkMeta (mkPos [99;111;109;109;101;110;116;115;46;112;114;111;116;111]%N 1 2 1) (mkPos [99;111;109;109;101;110;116;115;46;112;114;111;116;111]%N 9 2 9)));(mkComment [47;42;10;115;121;110;116;97;120;50;10;42;47]%N (mkMeta (mkPos [99;111;109;109;101;110;116;115;46;112;114;111;116;111]%N 11 3 1) (mkPos [99;111;109;109;101;110;116;115;46;112;114;111;116;111]%N 23 5 2)))] None (mkMeta (mkPos [99;111;109;109;101;110;116;115;46;112;114;111;116;111]%N 25 6 1) (mkPos [99;111;109;109;101;110;116;115;46;112;114;111;116;111]%N 42 6 18)))) None [(VImport (mkImport ImportModifierPublic [34;111;116;104;101;114;46;112;114;111;116;111;34]%N [(mkComment [47;47;32;105;109;112;111;114;116]%N (mkMeta (mkPos [99;111;109;109;101;110;116;115;46;112;114;111;116;111]%N 44 7 1) (mkPos [99;111;109;109;101;110;116;115;46;112;114;111;116;111]%N 52 7 9)))] None (mkMeta (mkPos [99;111;109;109;101;110;116;115;46;112;114;111;116;111]%N 54 8 1) (mkPos [99;111;109;109;101;110;116;115;46;112;114;111;116;111]%N 81 8 28))));(VPackage (mkPackage [102;111;111;46;98;97;114]%N [(mkComment [47;42;32;112;97;99;107;97;103;101;32;42;47]%N (mkMeta (mkPos [99;111;109;109;101;110;116;115;46;112;114;111;116;111]%N 83 9 1) (mkPos [99;111;109;109;101;110;116;115;46;112;114;111;116;111]%N 95 9 13)))] None (mkMeta (mkPos [99;111;109;109;101;110;116;115;46;112;114;111;116;111]%N 97 10 1) (mkPos [99;111;109;109;101;110;116;115;46;112;114;111;116;111]%N 112 10 16))));(VOption (mkOption [106;97;118;97;95;112;97;99;107;97;103;101]%N [34;99;111;109;46;101;120;97;109;112;108;101;46;102;111;111;34]%N [(mkComment [47;47;32;111;112;116;105;111;110]%N (mkMeta (mkPos [99;111;109;109;101;110;116;115;46;112;114;111;116;111]%N 114 11 1) (mkPos [99;111;109;109;101;110;116;115;46;112;114;111;116;111]%N 122 11 9)))] None (mkMeta (mkPos [99;111;109;109;101;110;116;115;46;112;114;111;116;111]%N 124 12 1) (mkPos [99;111;109;109;101;110;116;115;46;112;114;111;116;111]%N 163 12 40))));(VMessage (mkBlock [111;117;116;101;114]%N [] [(mkComment [47;47;32;109;101;115;115;97;103;101]%N (mkMeta (mkPos [99;111;109;109;101;110;116;115;46;112;114;111;116;111]%N 165 13 1) (mkPos [99;111;109;109;101;110;116;115;46;112;114;111;116;111]%N 174 13 10)))] None None (mkMeta (mkPos [99;111;109;109;101;110;116;115;46;112;114;111;116;111]%N 176 14 1) (mkPos [99;111;109;109;101;110;116;115;46;112;114;111;116;111]%N 192 15 1))));(VEnum (mkBlock [69;110;117;109;65;108;108;111;119;105;110;103;65;108;105;97;115]%N [(VOption (mkOption [97;108;108;111;119;95;97;108;105;97;115]%N [116;114;117;101]%N [] None (mkMeta (mkPos [99;111;109;109;101;110;116;115;46;112;114;111;116;111]%N 229 18 3) (mkPos [99;111;109;109;101;110;116;115;46;112;114;111;116;111]%N 254 18 28))))] [(mkComment [47;47;32;101;110;117;109]%N (mkMeta (mkPos [99;111;109;109;101;110;116;115;46;112;114;111;116;111]%N 194 16 1) (mkPos [99;111;109;109;101;110;116;115;46;112;114;111;116;111]%N 200 16 7)))] None None (mkMeta (mkPos [99;111;109;109;101;110;116;115;46;112;114;111;116;111]%N 202 17 1) (mkPos [99;111;109;109;101;110;116;115;46;112;114;111;116;111]%N 256 19 1))));(VService (mkBlock [83;101;97;114;99;104;83;101;114;118;105;99;101]%N [(VRPC (mkRPC [83;101;97;114;99;104]%N (mkRPCParam false [83;101;97;114;99;104;82;101;113;117;101;115;116]%N (mkMeta (mkPos [99;111;109;109;101;110;116;115;46;112;114;111;116;111]%N 306 22 14) (mkPos [99;111;109;109;101;110;116;115;46;112;114;111;116;111]%N 320 22 28))) (mkRPCParam false [83;101;97;114;99;104;82;101;115;112;111;110;115;101]%N (mkMeta (mkPos [99;111;109;109;101;110;116;115;46;112;114;111;116;111]%N 330 22 38) (mkPos [99;111;109;109;101;110;116;115;46;112;114;111;116;111]%N 345 22 53))) [] [] None None [] (mkMeta (mkPos [99;111;109;109;101;110;116;115;46;112;114;111;116;111]%N 295 22 3) (mkPos [99;111;109;109;101;110;116;115;46;112;114;111;116;111]%N 346 22 54))))] [(mkComment [47;47;32;115;101;114;118;105;99;101]%N (mkMeta (mkPos [99;111;109;109;101;110;116;115;46;112;114;111;116;111]%N 258 20 1) (mkPos [99;111;109;109;101;110;116;115;46;112;114;111;116;111]%N 267 20 10)))] None None (mkMeta (mkPos [99;111;109;109;101;110;116;115;46;112;114;111;116;111]%N 269 21 1) (mkPos [99;111;109;109;101;110;116;115;46;112;114;111;116;111]%N 348 23 1))))] [99;111;109;109;101;110;116;115;46;112;114;111;116;111]%N). Proof. vm_compute. reflexivity. Qed.
Example c_proto_129 : fst (ParseProto false false 339 (init_st [105;110;108;105;110;101;67;111;109;109;101;110;116;115;46;112;114;111;116;111]%N [10;115;121;110;116;97;120;32;61;32;34;112;114;111;116;111;51;34;59;32;47;47;32;115;121;110;116;97;120;10;105;109;112;111;114;116;32;112;117;98;108;105;99;32;34;111;116;104;101;114;46;112;114;111;116;111;34;59;32;47;47;32;105;109;112;111;114;116;10;112;97;99;107;97;103;101;32;102;111;111;46;98;97;114;59;32;47;42;32;112;97;99;107;97;103;101;32;42;47;10;111;112;116;105;111;110;32;106;97;118;97;95;112;97;99;107;97;103;101;32;61;32;34;99;111;109;46;101;120;97;109;112;108;101;46;102;111;111;34;59;32;47;47;32;111;112;116;105;111;110;10;109;101;115;115;97;103;101;32;111;117;116;101;114;32;123;10;125;32;47;47;32;109;101;115;115;97;103;101;10;101;110;117;109;32;69;110;117;109;65;108;108;111;119;105;110;103;65;108;105;97;115;32;123;10;32;32;111;112;116;105;111;110;32;97;108;108;111;119;95;97;108;105;97;115;32;61;32;116;114;117;101;59;10;125;32;47;47;32;101;110;117;109;10;115;101;114;118;105;99;101;32;83;101;97;114;99;104;83;101;114;118;105;99;101;32;123;10;32;32;114;112;99;32;83;101;97;114;99;104;32;40;83;101;97;114;99;104;82;101;113;117;101;115;116;41;32;114;101;116;117;114;110;115;32;40;83;101;97;114;99;104;82;101;115;112;111;110;115;101;41;59;10;125;32;47;47;32;115;101;114;118;105;99;101;10]%N)) = Ok (mkProto (Some (mkSyntax [112;114;111;116;111;51]%N [34;112;114;111;116;111;51;34]%N [] (Some (mkComment [47;47;32;115;121;110;116;97;120]%N (mkMeta (mkPos [105;110;108;105;110;101;67;111;109;109;101;110;116;115;46;112;114;111;116;111]%N 20 2 20) (mkPos [105;110;108;105;110;101;67;111;109;109;101;110;116;115;46;112;114;111;116;111]%N 28 2 28)))) (mkMeta (mkPos [105;110;108;105;110;101;67;111;109;109;101;110;116;115;46;112;114;111;116;111]%N 1 2 1) (mkPos [105;110;108;105;110;101;67;111;109;109;101;110;116;115;46;112;114;111;116;111]%N 18 2 18)))) None [(VImport (mkImport ImportModifierPublic [34;111;116;104;101;114;46;112;114;111;116;111;34]%N [] (Some (mkComment [47;47;32;105;109;112;111;114;116]%N (mkMeta (mkPos [105;110;108;105;110;101;67;111;109;109;101;110;116;115;46;112;114;111;116;111]%N 59 3 30) (mkPos [105;110;108;105;110;101;67;111;109;109;101;110;116;115;46;112;114;111;116;111]%N 67 3 38)))) (mkMeta (mkPos [105;110;108;105;110;101;67;111;109;109;101;110;116;115;46;112;114;111;116;111]%N 30 3 1) (mkPos [105;110;108;105;110;101;67;111;109;109;101;110;116;115;46;112;114;111;116;111]%N 57 3 28))));(VPackage (mkPackage [102;111;111;46;98;97;114]%N [] (Some (mkComment [47;42;32;112;97;99;107;97;103;101;32;42;47]%N (mkMeta (mkPos [105;110;108;105;110;101;67;111;109;109;101;110;116;115;46;112;114;111;116;111]%N 86 4 18) (mkPos [105;110;108;105;110;101;67;111;109;109;101;110;116;115;46;112;114;111;116;111]%N 98 4 30)))) (mkMeta (mkPos [105;110;108;105;110;101;67;111;109;109;101;110;116;115;46;112;114;111;116;111]%N 69 4 1) (mkPos [105;110;108;105;110;101;67;111;109;109;101;110;116;115;46;112;114;111;116;111]%N 84 4 16))));(VOption (mkOption [106;97;118;97;95;112;97;99;107;97;103;101]%N [34;99;111;109;46;101;120;97;109;112;108;101;46;102;111;111;34]%N [] (Some (mkComment [47;47;32;111;112;116;105;111;110]%N (mkMeta (mkPos [105;110;108;105;110;101;67;111;109;109;101;110;116;115;46;112;114;111;116;111]%N 141 5 42) (mkPos [105;110;108;105;110;101;67;111;109;109;101;110;116;115;46;112;114;111;116;111]%N 149 5 50)))) (mkMeta (mkPos [105;110;108;105;110;101;67;111;109;109;101;110;116;115;46;112;114;111;116;111]%N 100 5 1) (mkPos [105;110;108;105;110;101;67;111;109;109;101;110;116;115;46;112;114;111;116;111]%N 139 5 40))));(VMessage (mkBlock [111;117;116;101;114]%N [] [] (Some (mkComment [47;47;32;109;101;115;115;97;103;101]%N (mkMeta (mkPos [105;110;108;105;110;101;67;111;109;109;101;110;116;115;46;112;114;111;116;111]%N 169 7 3) (mkPos [105;110;108;105;110;101;67;111;109;109;101;110;116;115;46;112;114;111;116;111]%N 178 7 12)))) None (mkMeta (mkPos [105;110;108;105;110;101;67;111;109;109;101;110;116;115;46;112;114;111;116;111]%N 151 6 1) (mkPos [105;110;108;105;110;101;67;111;109;109;101;110;116;115;46;112;114;111;116;111]%N 167 7 1))));(VEnum (mkBlock [69;110;117;109;65;108;108;111;119;105;110;103;65;108;105;97;115]%N [(VOption (mkOption [97;108;108;111;119;95;97;108;105;97;115]%N [116;114;117;101]%N [] None (mkMeta (mkPos [105;110;108;105;110;101;67;111;109;109;101;110;116;115;46;112;114;111;116;111]%N 207 9 3) (mkPos [105;110;108;105;110;101;67;111;109;109;101;110;116;115;46;112;114;111;116;111]%N 232 9 28))))] [] (Some (mkComment [47;47;32;101;110;117;109]%N (mkMeta (mkPos [105;110;108;105;110;101;67;111;109;109;101;110;116;115;46;112;114;111;116;111]%N 236 10 3) (mkPos [105;110;108;105;110;101;67;111;109;109;101;110;116;115;46;112;114;111;116;111]%N 242 10 9)))) None (mkMeta (mkPos [105;110;108;105;110;101;67;111;109;109;101;110;116;115;46;112;114;111;116;111]%N 180 8 1) (mkPos [105;110;108;105;110;101;67;111;109;109;101;110;116;115;46;112;114;111;116;111]%N 234 10 1))));(VService (mkBlock [83;101;97;114;99;104;83;101;114;118;105;99;101]%N [(VRPC (mkRPC [83;101;97;114;99;104]%N (mkRPCParam false [83;101;97;114;99;104;82;101;113;117;101;115;116]%N (mkMeta (mkPos [105;110;108;105;110;101;67;111;109;109;101;110;116;115;46;112;114;111;116;111]%N 281 12 14) (mkPos [105;110;108;105;110;101;67;111;109;109;101;110;116;115;46;112;114;111;116;111]%N 295 12 28))) (mkRPCParam false [83;101;97;114;99;104;82;101;115;112;111;110;115;101]%N (mkMeta (mkPos [105;110;108;105;110;101;67;111;109;109;101;110;116;115;46;112;114;111;116;111]%N 305 12 38) (mkPos [105;110;108;105;110;101;67;111;109;109;101;110;116;115;46;112;114;111;116;111]%N 320 12 53))) [] [] None None [] (mkMeta (mkPos [105;110;108;105;110;101;67;111;109;109;101;110;116;115;46;112;114;111;116;111]%N 270 12 3) (mkPos [105;110;108;105;110;101;67;111;109;109;101;110;116;115;46;112;114;111;116;111]%N 321 12 54))))] [] (Some (mkComment [47;47;32;115;101;114;118;105;99;101]%N (mkMeta (mkPos [105;110;108;105;110;101;67;111;109;109;101;110;116;115;46;112;114;111;116;111]%N 325 13 3) (mkPos [105;110;108;105;110;101;67;111;109;109;101;110;116;115;46;112;114;111;116;111]%N 334 13 12)))) None (mkMeta (mkPos [105;110;108;105;110;101;67;111;109;109;101;110;116;115;46;112;114;111;116;111]%N 244 11 1) (mkPos [105;110;108;105;110;101;67;111;109;109;101;110;116;115;46;112;114;111;116;111]%N 323 13 1))))] [105;110;108;105;110;101;67;111;109;109;101;110;116;115;46;112;114;111;116;111]%N). Proof. vm_compute. reflexivity. Qed.
Example c_proto_130 : fst (ParseProto true false 339 (init_st [105;110;108;105;110;101;67;111;109;109;101;110;116;115;46;112;114;111;116;111]%N [10;115;121;110;116;97;120;32;61;32;34;112;114;111;116;111;51;34;59;32;47;47;32;115;121;110;116;97;120;10;105;109;112;111;114;116;32;112;117;98;108;105;99;32;34;111;116;104;101;114;46;112;114;111;116;111;34;59;32;47;47;32;105;109;112;111;114;116;10;112;97;99;107;97;103;101;32;102;111;111;46;98;97;114;59;32;47;42;32;112;97;99;107;97;103;101;32;42;47;10;111;112;116;105;111;110;32;106;97;118;97;95;112;97;99;107;97;103;101;32;61;32;34;99;111;109;46;101;120;97;109;112;108;101;46;102;111;111;34;59;32;47;47;32;111;112;116;105;111;110;10;109;101;115;115;97;103;101;32;111;117;116;101;114;32;123;10;125;32;47;47;32;109;101;115;115;97;103;101;10;101;110;117;109;32;69;110;117;109;65;108;108;111;119;105;110;103;65;108;105;97;115;32;123;10;32;32;111;112;116;105;111;110;32;97;108;108;111;119;95;97;108;105;97;115;32;61;32;116;114;117;101;59;10;125;32;47;47;32;101;110;117;109;10;115;101;114;118;105;99;101;32;83;101;97;114;99;104;83;101;114;118;105;99;101;32;123;10;32;32;114;112;99;32;83;101;97;114;99;104;32;40;83;101;97;114;99;104;82;101;113;117;101;115;116;41;32;114;101;116;117;114;110;115;32;40;83;101;97;114;99;104;82;101;115;112;111;110;115;101;41;59;10;125;32;47;47;32;115;101;114;118;105;99;101;10]%N)) = Ok (mkProto (Some (mkSyntax [112;114;111;116;111;51]%N [34;112;114;111;116;111;51;34]%N [] (Some (mkComment [47;47;32;115;121;110;116;97;120]%N (mkMeta (mkPos [105;110;108;105;110;101;67;111;109;109;101;110;116;115;46;112;114;111;116;111]%N 20 2 20) (mkPos [105;110;108;105;110;101;67;111;109;109;101;110;116;115;46;112;114;111;116;111]%N 28 2 28)))) (mkMeta (mkPos [105;110;108;105;110;101;67;111;109;109;101;110;116;115;46;112;114;111;116;111]%N 1 2 1) (mkPos [105;110;108;105;110;101;67;111;109;109;101;110;116;115;46;112;114;111;116;111]%N 18 2 18)))) None [(VImport (mkImport ImportModifierPublic [34;111;116;104;101;114;46;112;114;111;116;111;34]%N [] (Some (mkComment [47;47;32;105;109;112;111;114;116]%N (mkMeta (mkPos [105;110;108;105;110;101;67;111;109;109;101;110;116;115;46;112;114;111;116;111]%N 59 3 30) (mkPos [105;110;108;105;110;101;67;111;109;109;101;110;116;115;46;112;114;111;116;111]%N 67 3 38)))) (mkMeta (mkPos [105;110;108;105;110;101;67;111;109;109;101;110;116;115;46;112;114;111;116;111]%N 30 3 1) (mkPos [105;110;108;105;110;101;67;111;109;109;101;110;116;115;46;112;114;111;116;111]%N 57 3 28))));(VPackage (mkPackage [102;111;111;46;98;97;114]%N [] (Some (mkComment [47;42;32;112;97;99;107;97;103;101;32;42;47]%N (mkMeta (mkPos [105;110;108;105;110;101;67;111;109;109;101;110;116;115;46;112;114;111;116;111]%N 86 4 18) (mkPos [105;110;108;105;110;101;67;111;109;109;101;110;116;115;46;112;114;111;116;111]%N 98 4 30)))) (mkMeta (mkPos [105;110;108;105;110;101;67;111;109;109;101;110;116;115;46;112;114;111;116;111]%N 69 4 1) (mkPos [105;110;108;105;110;101;67;111;109;109;101;110;116;115;46;112;114;111;116;111]%N 84 4 16))));(VOption (mkOption [106;97;118;97;95;112;97;99;107;97;103;101]%N [34;99;111;109;46;101;120;97;109;112;108;101;46;102;111;111;34]%N [] (Some (mkComment [47;47;32;111;112;116;105;111;110]%N (mkMeta (mkPos [105;110;108;105;110;101;67;111;109;109;101;110;116;115;46;112;114;111;116;111]%N 141 5 42) (mkPos [105;110;108;105;110;101;67;111;109;109;101;110;116;115;46;112;114;111;116;111]%N 149 5 50)))) (mkMeta (mkPos [105;110;108;105;110;101;67;111;109;109;101;110;116;115;46;112;114;111;116;111]%N 100 5 1) (mkPos [105;110;108;105;110;101;67;111;109;109;101;110;116;115;46;112;114;111;116;111]%N 139 5 40))));(VMessage (mkBlock [111;117;116;101;114]%N [] [] (Some (mkComment [47;47;32;109;101;115;115;97;103;101]%N (mkMeta (mkPos [105;110;108;105;110;101;67;111;109;109;101;110;116;115;46;112;114;111;116;111]%N 169 7 3) (mkPos [105;110;108;105;110;101;67;111;109;109;101;110;116;115;46;112;114;111;116;111]%N 178 7 12)))) None (mkMeta (mkPos [105;110;108;105;110;101;67;111;109;109;101;110;116;115;46;112;114;111;116;111]%N 151 6 1) (mkPos [105;110;108;105;110;101;67;111;109;109;101;110;116;115;46;112;114;111;116;111]%N 167 7 1))));(VEnum (mkBlock [69;110;117;109;65;108;108;111;119;105;110;103;65;108;105;97;115]%N [(VOption (mkOption [97;108;108;111;119;95;97;108;105;97;115]%N [116;114;117;101]%N [] None (mkMeta (mkPos [105;110;108;105;110;101;67;111;109;109;101;110;116;115;46;112;114;111;116;111]%N 207 9 3) (mkPos [105;110;108;105;110;101;67;111;109;109;101;110;116;115;46;112;114;111;116;111]%N 232 9 28))))] [] (Some (mkComment [47;47;32;101;110;117;109]%N (mkMeta (mkPos [105;110;108;105;110;101;67;111;109;109;101;110;116;115;46;112;114;111;116;111]%N 236 10 3) (mkPos [105;110;108;105;110;101;67;111;109;109;101;110;116;115;46;112;114;111;116;111]%N 242 10 9)))) None (mkMeta (mkPos [105;110;108;105;110;101;67;111;109;109;101;110;116;115;46;112;114;111;116;111]%N 180 8 1) (mkPos [105;110;108;105;110;101;67;111;109;109;101;110;116;115;46;112;114;111;116;111]%N 234 10 1))));(VService (mkBlock [83;101;97;114;99;104;83;101;114;118;105;99;101]%N [(VRPC (mkRPC [83;101;97;114;99;104]%N (mkRPCParam false [83;101;97;114;99;104;82;101;113;117;101;115;116]%N (mkMeta (mkPos [105;110;108;105;110;101;67;111;109;109;101;110;116;115;46;112;114;111;116;111]%N 281 12 14) (mkPos [105;110;108;105;110;101;67;111;109;109;101;110;116;115;46;112;114;111;116;111]%N 295 12 28))) (mkRPCParam false [83;101;97;114;99;104;82;101;115;112;111;110;115;101]%N (mkMeta (mkPos [105;110;108;105;110;101;67;111;109;109;101;110;116;115;46;112;114;111;116;111]%N 305 12 38) (mkPos [105;110;108;105;110;101;67;111;109;109;101;110;116;115;46;112;114;111;116;111]%N 320 12 53))) [] [] None None [] (mkMeta (mkPos [105;110;108;105;110;101;67;111;109;109;101;110;116;115;46;112;114;111;116;111]%N 270 12 3) (mkPos [105;110;108;105;110;101;67;111;109;109;101;110;116;115;46;112;114;111;116;111]%N 321 12 54))))] [] (Some (mkComment [47;47;32;115;101;114;118;105;99;101]%N (mkMeta (mkPos [105;110;108;105;110;101;67;111;109;109;101;110;116;115;46;112;114;111;116;111]%N 325 13 3) (mkPos [105;110;108;105;110;101;67;111;109;109;101;110;116;115;46;112;114;111;116;111]%N 334 13 12)))) None (mkMeta (mkPos [105;110;108;105;110;101;67;111;109;109;101;110;116;115;46;112;114;111;116;111]%N 244 11 1) (mkPos [105;110;108;105;110;101;67;111;109;109;101;110;116;115;46;112;114;111;116;111]%N 323 13 1))))] [105;110;108;105;110;101;67;111;109;109;101;110;116;115;46;112;114;111;116;111]%N). Proof. vm_compute. reflexivity. Qed.
Example c_proto_131 : fst (ParseProto false false 120 (init_st [115;101;114;118;105;99;101;46;112;114;111;116;111]%N [10;115;121;110;116;97;120;32;61;32;34;112;114;111;116;111;51;34;59;10;115;101;114;118;105;99;101;32;83;101;97;114;99;104;83;101;114;118;105;99;101;32;123;10;32;32;114;112;99;32;83;101;97;114;99;104;32;40;83;101;97;114;99;104;82;101;113;117;101;115;116;41;32;114;101;116;117;114;110;115;32;40;83;101;97;114;99;104;82;101;115;112;111;110;115;101;41;59;10;125;10;47;47;32;108;97;115;116;32;99;111;109;109;101;110;116;10]%N)) = Ok (mkProto (Some (mkSyntax [112;114;111;116;111;51]%N [34;112;114;111;116;111;51;34]%N [] None (mkMeta (mkPos [115;101;114;118;105;99;101;46;112;114;111;116;111]%N 1 2 1) (mkPos [115;101;114;118;105;99;101;46;112;114;111;116;111]%N 18 2 18)))) None [(VService (mkBlock [83;101;97;114;99;104;83;101;114;118;105;99;101]%N [(VRPC (mkRPC [83;101;97;114;99;104]%N (mkRPCParam false [83;101;97;114;99;104;82;101;113;117;101;115;116]%N (mkMeta (mkPos [115;101;114;118;105;99;101;46;112;114;111;116;111]%N 57 4 14) (mkPos [115;101;114;118;105;99;101;46;112;114;111;116;111]%N 71 4 28))) (mkRPCParam false [83;101;97;114;99;104;82;101;115;112;111;110;115;101]%N (mkMeta (mkPos [115;101;114;118;105;99;101;46;112;114;111;116;111]%N 81 4 38) (mkPos [115;101;114;118;105;99;101;46;112;114;111;116;111]%N 96 4 53))) [] [] None None [] (mkMeta (mkPos [115;101;114;118;105;99;101;46;112;114;111;116;111]%N 46 4 3) (mkPos [115;101;114;118;105;99;101;46;112;114;111;116;111]%N 97 4 54))))] [] None None (mkMeta (mkPos [115;101;114;118;105;99;101;46;112;114;111;116;111]%N 20 3 1) (mkPos [115;101;114;118;105;99;101;46;112;114;111;116;111]%N 99 5 1))))] [115;101;114;118;105;99;101;46;112;114;111;116;111]%N). Proof. vm_compute. reflexivity. Qed.
Example c_proto_132 : fst (ParseProto false true 152 (init_st [115;101;114;118;105;99;101;46;112;114;111;116;111]%N [10;115;121;110;116;97;120;32;61;32;34;112;114;111;116;111;51;34;59;10;115;101;114;118;105;99;101;32;83;101;97;114;99;104;83;101;114;118;105;99;101;32;123;10;32;32;114;112;99;32;83;101;97;114;99;104;32;40;83;101;97;114;99;104;82;101;113;117;101;115;116;41;32;114;101;116;117;114;110;115;32;40;83;101;97;114;99;104;82;101;115;112;111;110;115;101;41;59;10;125;10;47;47;32;108;97;115;116;32;102;105;114;115;116;32;99;111;109;109;101;110;116;10;47;42;32;108;97;115;116;32;115;101;99;111;110;100;32;99;111;109;109;101;110;116;32;42;47;10]%N)) = Ok (mkProto (Some (mkSyntax [112;114;111;116;111;51]%N [34;112;114;111;116;111;51;34]%N [] None (mkMeta (mkPos [115;101;114;118;105;99;101;46;112;114;111;116;111]%N 1 2 1) (mkPos [115;101;114;118;105;99;101;46;112;114;111;116;111]%N 18 2 18)))) None [(VService (mkBlock [83;101;97;114;99;104;83;101;114;118;105;99;101]%N [(VRPC (mkRPC [83;101;97;114;99;104]%N (mkRPCParam false [83;101;97;114;99;104;82;101;113;117;101;115;116]%N (mkMeta (mkPos [115;101;114;118;105;99;101;46;112;114;111;116;111]%N 57 4 14) (mkPos [115;101;114;118;105;99;101;46;112;114;111;116;111]%N 71 4 28))) (mkRPCParam false [83;101;97;114;99;104;82;101;115;112;111;110;115;101]%N (mkMeta (mkPos [115;101;114;118;105;99;101;46;112;114;111;116;111]%N 81 4 38) (mkPos [115;101;114;118;105;99;101;46;112;114;111;116;111]%N 96 4 53))) [] [] None None [] (mkMeta (mkPos [115;101;114;118;105;99;101;46;112;114;111;116;111]%N 46 4 3) (mkPos [115;101;114;118;105;99;101;46;112;114;111;116;111]%N 97 4 54))))] [] None None (mkMeta (mkPos [115;101;114;118;105;99;101;46;112;114;111;116;111]%N 20 3 1) (mkPos [115;101;114;118;105;99;101;46;112;114;111;116;111]%N 99 5 1))));(VComment (mkComment [47;47;32;108;97;115;116;32;102;105;114;115;116;32;99;111;109;109;101;110;116]%N (mkMeta (mkPos [115;101;114;118;105;99;101;46;112;114;111;116;111]%N 101 6 1) (mkPos [115;101;114;118;105;99;101;46;112;114;111;116;111]%N 121 6 21))));(VComment (mkComment [47;42;32;108;97;115;116;32;115;101;99;111;110;100;32;99;111;109;109;101;110;116;32;42;47]%N (mkMeta (mkPos [115;101;114;118;105;99;101;46;112;114;111;116;111]%N 123 7 1) (mkPos [115;101;114;118;105;99;101;46;112;114;111;116;111]%N 147 7 25))))] [115;101;114;118;105;99;101;46;112;114;111;116;111]%N). Proof. vm_compute. reflexivity. Qed.
Example c_proto_133 : fst (ParseProto false false 57 (init_st []%N [10;115;121;110;116;97;120;32;61;32;34;112;114;111;116;111;51;34;59;10;101;120;116;101;110;100;32;70;111;111;32;123;10;32;32;105;110;116;51;50;32;98;97;114;32;61;32;49;50;54;59;10;125;10]%N)) = Ok (mkProto (Some (mkSyntax [112;114;111;116;111;51]%N [34;112;114;111;116;111;51;34]%N [] None (mkMeta (mkPos []%N 1 2 1) (mkPos []%N 18 2 18)))) None [(VExtend (mkBlock [70;111;111]%N [(VField (mkField false false false [105;110;116;51;50]%N [98;97;114]%N [49;50;54]%N [] [] None (mkMeta (mkPos []%N 35 4 3) (mkPos []%N 50 4 18))))] [] None None (mkMeta (mkPos []%N 20 3 1) (mkPos []%N 52 5 1))))] []%N). Proof. vm_compute. reflexivity. Qed.
Example c_proto_134 : fst (ParseProto false false 559 (init_st [111;102;102;105;99;105;97;108;46;112;114;111;116;111]%N [10;115;121;110;116;97;120;32;61;32;34;112;114;111;116;111;50;34;59;10;105;109;112;111;114;116;32;112;117;98;108;105;99;32;34;111;116;104;101;114;46;112;114;111;116;111;34;59;10;111;112;116;105;111;110;32;106;97;118;97;95;112;97;99;107;97;103;101;32;61;32;34;99;111;109;46;101;120;97;109;112;108;101;46;102;111;111;34;59;10;101;110;117;109;32;69;110;117;109;65;108;108;111;119;105;110;103;65;108;105;97;115;32;123;10;32;32;111;112;116;105;111;110;32;97;108;108;111;119;95;97;108;105;97;115;32;61;32;116;114;117;101;59;10;32;32;85;78;75;78;79;87;78;32;61;32;48;59;10;32;32;83;84;65;82;84;69;68;32;61;32;49;59;10;32;32;82;85;78;78;73;78;71;32;61;32;50;32;91;40;99;117;115;116;111;109;95;111;112;116;105;111;110;41;32;61;32;34;104;101;108;108;111;32;119;111;114;108;100;34;93;59;10;125;10;109;101;115;115;97;103;101;32;111;117;116;101;114;32;123;10;32;32;111;112;116;105;111;110;32;40;109;121;95;111;112;116;105;111;110;41;46;97;32;61;32;116;114;117;101;59;10;32;32;109;101;115;115;97;103;101;32;105;110;110;101;114;32;123;32;32;32;47;47;32;76;101;118;101;108;32;50;10;32;32;32;32;114;101;113;117;105;114;101;100;32;105;110;116;54;52;32;105;118;97;108;32;61;32;49;59;10;32;32;125;10;32;32;114;101;112;101;97;116;101;100;32;105;110;110;101;114;32;105;110;110;101;114;95;109;101;115;115;97;103;101;32;61;32;50;59;10;32;32;111;112;116;105;111;110;97;108;32;69;110;117;109;65;108;108;111;119;105;110;103;65;108;105;97;115;32;101;110;117;109;95;102;105;101;108;100;32;61;32;51;59;10;32;32;109;97;112;60;105;110;116;51;50;44;32;115;116;114;105;110;103;62;32;109;121;95;109;97;112;32;61;32;52;59;10;32;32;101;120;116;101;110;115;105;111;110;115;32;50;48;32;116;111;32;51;48;59;10;125;10;109;101;115;115;97;103;101;32;102;111;111;32;123;10;32;32;111;112;116;105;111;110;97;108;32;103;114;111;117;112;32;71;114;111;117;112;77;101;115;115;97;103;101;32;61;32;49;32;123;10;32;32;32;32;111;112;116;105;111;110;97;108;32;105;110;116;54;52;32;97;32;61;32;49;59;10;32;32;125;10;125]%N)) = Ok (mkProto (Some (mkSyntax [112;114;111;116;111;50]%N [34;112;114;111;116;111;50;34]%N [] None (mkMeta (mkPos [111;102;102;105;99;105;97;108;46;112;114;111;116;111]%N 1 2 1) (mkPos [111;102;102;105;99;105;97;108;46;112;114;111;116;111]%N 18 2 18)))) None [(VImport (mkImport ImportModifierPublic [34;111;116;104;101;114;46;112;114;111;116;111;34]%N [] None (mkMeta (mkPos [111;102;102;105;99;105;97;108;46;112;114;111;116;111]%N 20 3 1) (mkPos [111;102;102;105;99;105;97;108;46;112;114;111;116;111]%N 47 3 28))));(VOption (mkOption [106;97;118;97;95;112;97;99;107;97;103;101]%N [34;99;111;109;46;101;120;97;109;112;108;101;46;102;111;111;34]%N [] None (mkMeta (mkPos [111;102;102;105;99;105;97;108;46;112;114;111;116;111]%N 49 4 1) (mkPos [111;102;102;105;99;105;97;108;46;112;114;111;116;111]%N 88 4 40))));(VEnum (mkBlock [69;110;117;109;65;108;108;111;119;105;110;103;65;108;105;97;115]%N [(VOption (mkOption [97;108;108;111;119;95;97;108;105;97;115]%N [116;114;117;101]%N [] None (mkMeta (mkPos [111;102;102;105;99;105;97;108;46;112;114;111;116;111]%N 117 6 3) (mkPos [111;102;102;105;99;105;97;108;46;112;114;111;116;111]%N 142 6 28))));(VEnumField (mkEnumField [85;78;75;78;79;87;78]%N [48]%N [] [] None (mkMeta (mkPos [111;102;102;105;99;105;97;108;46;112;114;111;116;111]%N 146 7 3) (mkPos [111;102;102;105;99;105;97;108;46;112;114;111;116;111]%N 157 7 14))));(VEnumField (mkEnumField [83;84;65;82;84;69;68]%N [49]%N [] [] None (mkMeta (mkPos [111;102;102;105;99;105;97;108;46;112;114;111;116;111]%N 161 8 3) (mkPos [111;102;102;105;99;105;97;108;46;112;114;111;116;111]%N 172 8 14))));(VEnumField (mkEnumField [82;85;78;78;73;78;71]%N [50]%N [(mkEnumValueOption [40;99;117;115;116;111;109;95;111;112;116;105;111;110;41]%N [34;104;101;108;108;111;32;119;111;114;108;100;34]%N)] [] None (mkMeta (mkPos [111;102;102;105;99;105;97;108;46;112;114;111;116;111]%N 176 9 3) (mkPos [111;102;102;105;99;105;97;108;46;112;114;111;116;111]%N 221 9 48))))] [] None None (mkMeta (mkPos [111;102;102;105;99;105;97;108;46;112;114;111;116;111]%N 90 5 1) (mkPos [111;102;102;105;99;105;97;108;46;112;114;111;116;111]%N 223 10 1))));(VMessage (mkBlock [111;117;116;101;114]%N [(VOption (mkOption [40;109;121;95;111;112;116;105;111;110;41;46;97]%N [116;114;117;101]%N [] None (mkMeta (mkPos [111;102;102;105;99;105;97;108;46;112;114;111;116;111]%N 243 12 3) (mkPos [111;102;102;105;99;105;97;108;46;112;114;111;116;111]%N 270 12 30))));(VMessage (mkBlock [105;110;110;101;114]%N [(VField (mkField false true false [105;110;116;54;52]%N [105;118;97;108]%N [49]%N [] [] None (mkMeta (mkPos [111;102;102;105;99;105;97;108;46;112;114;111;116;111]%N 307 14 5) (mkPos [111;102;102;105;99;105;97;108;46;112;114;111;116;111]%N 330 14 28))))] [] None (Some (mkComment [47;47;32;76;101;118;101;108;32;50]%N (mkMeta (mkPos [111;102;102;105;99;105;97;108;46;112;114;111;116;111]%N 292 13 21) (mkPos [111;102;102;105;99;105;97;108;46;112;114;111;116;111]%N 301 13 30)))) (mkMeta (mkPos [111;102;102;105;99;105;97;108;46;112;114;111;116;111]%N 274 13 3) (mkPos [111;102;102;105;99;105;97;108;46;112;114;111;116;111]%N 334 15 3))));(VField (mkField true false false [105;110;110;101;114]%N [105;110;110;101;114;95;109;101;115;115;97;103;101]%N [50]%N [] [] None (mkMeta (mkPos [111;102;102;105;99;105;97;108;46;112;114;111;116;111]%N 338 16 3) (mkPos [111;102;102;105;99;105;97;108;46;112;114;111;116;111]%N 370 16 35))));(VField (mkField false false true [69;110;117;109;65;108;108;111;119;105;110;103;65;108;105;97;115]%N [101;110;117;109;95;102;105;101;108;100]%N [51]%N [] [] None (mkMeta (mkPos [111;102;102;105;99;105;97;108;46;112;114;111;116;111]%N 374 17 3) (mkPos [111;102;102;105;99;105;97;108;46;112;114;111;116;111]%N 415 17 44))));(VMapField (mkMapField [105;110;116;51;50]%N [115;116;114;105;110;103]%N [109;121;95;109;97;112]%N [52]%N [] [] None (mkMeta (mkPos [111;102;102;105;99;105;97;108;46;112;114;111;116;111]%N 419 18 3) (mkPos [111;102;102;105;99;105;97;108;46;112;114;111;116;111]%N 448 18 32))));(VExtensions (mkExtensions [(mkRange [50;48]%N [51;48]%N)] [] [] None None (mkMeta (mkPos [111;102;102;105;99;105;97;108;46;112;114;111;116;111]%N 452 19 3) (mkPos [111;102;102;105;99;105;97;108;46;112;114;111;116;111]%N 471 19 22))))] [] None None (mkMeta (mkPos [111;102;102;105;99;105;97;108;46;112;114;111;116;111]%N 225 11 1) (mkPos [111;102;102;105;99;105;97;108;46;112;114;111;116;111]%N 473 20 1))));(VMessage (mkBlock [102;111;111]%N [(VGroupField (mkGroupField false false true [71;114;111;117;112;77;101;115;115;97;103;101]%N [(VField (mkField false false true [105;110;116;54;52]%N [97]%N [49]%N [] [] None (mkMeta (mkPos [111;102;102;105;99;105;97;108;46;112;114;111;116;111]%N 529 23 5) (mkPos [111;102;102;105;99;105;97;108;46;112;114;111;116;111]%N 549 23 25))))] [49]%N [] None None (mkMeta (mkPos [111;102;102;105;99;105;97;108;46;112;114;111;116;111]%N 491 22 3) (mkPos [111;102;102;105;99;105;97;108;46;112;114;111;116;111]%N 553 24 3))))] [] None None (mkMeta (mkPos [111;102;102;105;99;105;97;108;46;112;114;111;116;111]%N 475 21 1) (mkPos [111;102;102;105;99;105;97;108;46;112;114;111;116;111]%N 555 25 1))))] [111;102;102;105;99;105;97;108;46;112;114;111;116;111]%N). Proof. vm_compute. reflexivity. Qed.
Example c_proto_135 : fst (ParseProto false false 24 (init_st []%N [65279;10;115;121;110;116;97;120;32;61;32;34;112;114;111;116;111;51;34;59;10]%N)) = Ok (mkProto (Some (mkSyntax [112;114;111;116;111;51]%N [34;112;114;111;116;111;51;34]%N [] None (mkMeta (mkPos []%N 4 2 1) (mkPos []%N 21 2 18)))) None [] []%N). Proof. vm_compute. reflexivity. Qed.
Example c_proto_136 : fst (ParseProto false false 699 (init_st []%N [10;101;100;105;116;105;111;110;32;61;32;34;50;48;50;51;34;59;10;105;109;112;111;114;116;32;112;117;98;108;105;99;32;34;111;116;104;101;114;46;112;114;111;116;111;34;59;10;111;112;116;105;111;110;32;106;97;118;97;95;112;97;99;107;97;103;101;32;61;32;34;99;111;109;46;101;120;97;109;112;108;101;46;102;111;111;34;59;10;101;110;117;109;32;69;110;117;109;65;108;108;111;119;105;110;103;65;108;105;97;115;32;123;10;32;32;111;112;116;105;111;110;32;97;108;108;111;119;95;97;108;105;97;115;32;61;32;116;114;117;101;59;10;32;32;69;65;65;95;85;78;83;80;69;67;73;70;73;69;68;32;61;32;48;59;10;32;32;69;65;65;95;83;84;65;82;84;69;68;32;61;32;49;59;10;32;32;69;65;65;95;82;85;78;78;73;78;71;32;61;32;49;59;10;32;32;69;65;65;95;70;73;78;73;83;72;69;68;32;61;32;50;32;91;40;99;117;115;116;111;109;95;111;112;116;105;111;110;41;32;61;32;34;104;101;108;108;111;32;119;111;114;108;100;34;93;59;10;125;10;109;101;115;115;97;103;101;32;79;117;116;101;114;32;123;10;32;32;111;112;116;105;111;110;32;40;109;121;95;111;112;116;105;111;110;41;46;97;32;61;32;116;114;117;101;59;10;32;32;109;101;115;115;97;103;101;32;73;110;110;101;114;32;123;32;32;32;47;47;32;76;101;118;101;108;32;50;10;32;32;32;32;105;110;116;54;52;32;105;118;97;108;32;61;32;49;32;91;102;101;97;116;117;114;101;115;46;102;105;101;108;100;95;112;114;101;115;101;110;99;101;32;61;32;76;69;71;65;67;89;95;82;69;81;85;73;82;69;68;93;59;10;32;32;125;10;32;32;114;101;112;101;97;116;101;100;32;73;110;110;101;114;32;105;110;110;101;114;95;109;101;115;115;97;103;101;32;61;32;50;59;10;32;32;69;110;117;109;65;108;108;111;119;105;110;103;65;108;105;97;115;32;101;110;117;109;95;102;105;101;108;100;32;61;32;51;59;10;32;32;109;97;112;60;105;110;116;51;50;44;32;115;116;114;105;110;103;62;32;109;121;95;109;97;112;32;61;32;52;59;10;32;32;101;120;116;101;110;115;105;111;110;115;32;50;48;32;116;111;32;51;48;59;10;32;32;114;101;115;101;114;118;101;100;32;114;101;115;101;114;118;101;100;95;102;105;101;108;100;59;10;125;10;109;101;115;115;97;103;101;32;70;111;111;32;123;10;32;32;109;101;115;115;97;103;101;32;71;114;111;117;112;77;101;115;115;97;103;101;32;123;10;32;32;32;32;98;111;111;108;32;97;32;61;32;49;59;10;32;32;125;10;32;32;71;114;111;117;112;77;101;115;115;97;103;101;32;103;114;111;117;112;109;101;115;115;97;103;101;32;61;32;50;32;91;102;101;97;116;117;114;101;115;46;109;101;115;115;97;103;101;95;101;110;99;111;100;105;110;103;32;61;32;68;69;76;73;77;73;84;69;68;93;59;10;125]%N)) = Ok (mkProto None (Some (mkEdition [50;48;50;51]%N [34;50;48;50;51;34]%N [] None (mkMeta (mkPos []%N 1 2 1) (mkPos []%N 17 2 17)))) [(VImport (mkImport ImportModifierPublic [34;111;116;104;101;114;46;112;114;111;116;111;34]%N [] None (mkMeta (mkPos []%N 19 3 1) (mkPos []%N 46 3 28))));(VOption (mkOption [106;97;118;97;95;112;97;99;107;97;103;101]%N [34;99;111;109;46;101;120;97;109;112;108;101;46;102;111;111;34]%N [] None (mkMeta (mkPos []%N 48 4 1) (mkPos []%N 87 4 40))));(VEnum (mkBlock [69;110;117;109;65;108;108;111;119;105;110;103;65;108;105;97;115]%N [(VOption (mkOption [97;108;108;111;119;95;97;108;105;97;115]%N [116;114;117;101]%N [] None (mkMeta (mkPos []%N 116 6 3) (mkPos []%N 141 6 28))));(VEnumField (mkEnumField [69;65;65;95;85;78;83;80;69;67;73;70;73;69;68]%N [48]%N [] [] None (mkMeta (mkPos []%N 145 7 3) (mkPos []%N 164 7 22))));(VEnumField (mkEnumField [69;65;65;95;83;84;65;82;84;69;68]%N [49]%N [] [] None (mkMeta (mkPos []%N 168 8 3) (mkPos []%N 183 8 18))));(VEnumField (mkEnumField [69;65;65;95;82;85;78;78;73;78;71]%N [49]%N [] [] None (mkMeta (mkPos []%N 187 9 3) (mkPos []%N 202 9 18))));(VEnumField (mkEnumField [69;65;65;95;70;73;78;73;83;72;69;68]%N [50]%N [(mkEnumValueOption [40;99;117;115;116;111;109;95;111;112;116;105;111;110;41]%N [34;104;101;108;108;111;32;119;111;114;108;100;34]%N)] [] None (mkMeta (mkPos []%N 206 10 3) (mkPos []%N 256 10 53))))] [] None None (mkMeta (mkPos []%N 89 5 1) (mkPos []%N 258 11 1))));(VMessage (mkBlock [79;117;116;101;114]%N [(VOption (mkOption [40;109;121;95;111;112;116;105;111;110;41;46;97]%N [116;114;117;101]%N [] None (mkMeta (mkPos []%N 278 13 3) (mkPos []%N 305 13 30))));(VMessage (mkBlock [73;110;110;101;114]%N [(VField (mkField false false false [105;110;116;54;52]%N [105;118;97;108]%N [49]%N [(mkFieldOption [102;101;97;116;117;114;101;115;46;102;105;101;108;100;95;112;114;101;115;101;110;99;101]%N [76;69;71;65;67;89;95;82;69;81;85;73;82;69;68]%N)] [] None (mkMeta (mkPos []%N 342 15 5) (mkPos []%N 400 15 63))))] [] None (Some (mkComment [47;47;32;76;101;118;101;108;32;50]%N (mkMeta (mkPos []%N 327 14 21) (mkPos []%N 336 14 30)))) (mkMeta (mkPos []%N 309 14 3) (mkPos []%N 404 16 3))));(VField (mkField true false false [73;110;110;101;114]%N [105;110;110;101;114;95;109;101;115;115;97;103;101]%N [50]%N [] [] None (mkMeta (mkPos []%N 408 17 3) (mkPos []%N 440 17 35))));(VField (mkField false false false [69;110;117;109;65;108;108;111;119;105;110;103;65;108;105;97;115]%N [101;110;117;109;95;102;105;101;108;100]%N [51]%N [] [] None (mkMeta (mkPos []%N 444 18 3) (mkPos []%N 476 18 35))));(VMapField (mkMapField [105;110;116;51;50]%N [115;116;114;105;110;103]%N [109;121;95;109;97;112]%N [52]%N [] [] None (mkMeta (mkPos []%N 480 19 3) (mkPos []%N 509 19 32))));(VExtensions (mkExtensions [(mkRange [50;48]%N [51;48]%N)] [] [] None None (mkMeta (mkPos []%N 513 20 3) (mkPos []%N 532 20 22))));(VReserved (mkReserved [] [[114;101;115;101;114;118;101;100;95;102;105;101;108;100]%N] [] None (mkMeta (mkPos []%N 536 21 3) (mkPos []%N 559 21 26))))] [] None None (mkMeta (mkPos []%N 260 12 1) (mkPos []%N 561 22 1))));(VMessage (mkBlock [70;111;111]%N [(VMessage (mkBlock [71;114;111;117;112;77;101;115;115;97;103;101]%N [(VField (mkField false false false [98;111;111;108]%N [97]%N [49]%N [] [] None (mkMeta (mkPos []%N 606 25 5) (mkPos []%N 616 25 15))))] [] None None (mkMeta (mkPos []%N 579 24 3) (mkPos []%N 620 26 3))));(VField (mkField false false false [71;114;111;117;112;77;101;115;115;97;103;101]%N [103;114;111;117;112;109;101;115;115;97;103;101]%N [50]%N [(mkFieldOption [102;101;97;116;117;114;101;115;46;109;101;115;115;97;103;101;95;101;110;99;111;100;105;110;103]%N [68;69;76;73;77;73;84;69;68]%N)] [] None (mkMeta (mkPos []%N 624 27 3) (mkPos []%N 693 27 72))))] [] None None (mkMeta (mkPos []%N 563 23 1) (mkPos []%N 695 28 1))))] []%N). Proof. vm_compute. reflexivity. Qed.
Example c_comment_137 : fst (ParseComments (init_st []%N []%N)) = Ok []. Proof. vm_compute. reflexivity. Qed.
Example c_comment_138 : fst (ParseComments (init_st []%N [47;47;32;99;111;109;109;101;110;116;10]%N)) = Ok [(mkComment [47;47;32;99;111;109;109;101;110;116]%N (mkMeta (mkPos []%N 0 1 1) (mkPos []%N 9 1 10)))]. Proof. vm_compute. reflexivity. Qed.
Example c_comment_139 : fst (ParseComments (init_st []%N [47;47;32;99;111;109;109;101;110;116;10;47;47;32;99;111;109;109;101;110;116;50;10]%N)) = Ok [(mkComment [47;47;32;99;111;109;109;101;110;116]%N (mkMeta (mkPos []%N 0 1 1) (mkPos []%N 9 1 10)));(mkComment [47;47;32;99;111;109;109;101;110;116;50]%N (mkMeta (mkPos []%N 11 2 1) (mkPos []%N 21 2 11)))]. Proof. vm_compute. reflexivity. Qed.
Example c_comment_140 : fst (ParseComments (init_st []%N [47;42;10;99;111;109;109;101;110;116;10;42;47]%N)) = Ok [(mkComment [47;42;10;99;111;109;109;101;110;116;10;42;47]%N (mkMeta (mkPos []%N 0 1 1) (mkPos []%N 12 3 2)))]. Proof. vm_compute. reflexivity. Qed.
Example c_comment_141 : fst (ParseComments (init_st []%N [47;42;10;99;111;109;109;101;110;116;10;42;47;10;47;42;10;99;111;109;109;101;110;116;50;10;42;47]%N)) = Ok [(mkComment [47;42;10;99;111;109;109;101;110;116;10;42;47]%N (mkMeta (mkPos []%N 0 1 1) (mkPos []%N 12 3 2)));(mkComment [47;42;10;99;111;109;109;101;110;116;50;10;42;47]%N (mkMeta (mkPos []%N 14 4 1) (mkPos []%N 27 6 2)))]. Proof. vm_compute. reflexivity. Qed.
Example c_comment_142 : fst (ParseComments (init_st []%N [47;42;10;99;111;109;109;101;110;116;10;42;47;10;10;47;47;32;99;111;109;109;101;110;116;50;10]%N)) = Ok [(mkComment [47;42;10;99;111;109;109;101;110;116;10;42;47]%N (mkMeta (mkPos []%N 0 1 1) (mkPos []%N 12 3 2)));(mkComment [47;47;32;99;111;109;109;101;110;116;50]%N (mkMeta (mkPos []%N 15 5 1) (mkPos []%N 25 5 11)))]. Proof. vm_compute. reflexivity. Qed.
(* /repo/_testdata/bom.proto *)
Example d_0 : is_ok (ParseBytes [] [239;187;191;115;121;110;116;97;120;32;61;32;34;112;114;111;116;111;51;34;59;10]%N) = true. Proof. vm_compute. reflexivity. Qed.
(* /repo/_testdata/cloudEndpoints.proto *)
Example d_1 : is_ok (ParseBytes [] [47;47;32;67;111;112;121;114;105;103;104;116;32;50;48;49;55;32;71;111;111;103;108;101;32;76;76;67;32;65;108;108;32;82;105;103;104;116;115;32;82;101;115;101;114;118;101;100;46;10;47;47;10;47;47;32;76;105;99;101;110;115;101;100;32;117;110;100;101;114;32;116;104;101;32;65;112;97;99;104;101;32;76;105;99;101;110;115;101;44;32;86;101;114;115;105;111;110;32;50;46;48;32;40;116;104;101;32;34;76;105;99;101;110;115;101;34;41;59;10;47;47;32;121;111;117;32;109;97;121;32;110;111;116;32;117;115;101;32;116;104;105;115;32;102;105;108;101;32;101;120;99;101;112;116;32;105;110;32;99;111;109;112;108;105;97;110;99;101;32;119;105;116;104;32;116;104;101;32;76;105;99;101;110;115;101;46;10;47;47;32;89;111;117;32;109;97;121;32;111;98;116;97;105;110;32;97;32;99;111;112;121;32;111;102;32;116;104;101;32;76;105;99;101;110;115;101;32;97;116;10;47;47;10;47;47;32;32;32;32;32;104;116;116;112;58;47;47;119;119;119;46;97;112;97;99;104;101;46;111;114;103;47;108;105;99;101;110;115;101;115;47;76;73;67;69;78;83;69;45;50;46;48;10;47;47;10;47;47;32;85;110;108;101;115;115;32;114;101;113;117;105;114;101;100;32;98;121;32;97;112;112;108;105;99;97;98;108;101;32;108;97;119;32;111;114;32;97;103;114;101;101;100;32;116;111;32;105;110;32;119;114;105;116;105;110;103;44;32;115;111;102;116;119;97;114;101;10;47;47;32;100;105;115;116;114;105;98;117;116;101;100;32;117;110;100;101;114;32;116;104;101;32;76;105;99;101;110;115;101;32;105;115;32;100;105;115;116;114;105;98;117;116;101;100;32;111;110;32;97;110;32;34;65;83;32;73;83;34;32;66;65;83;73;83;44;10;47;47;32;87;73;84;72;79;85;84;32;87;65;82;82;65;78;84;73;69;83;32;79;82;32;67;79;78;68;73;84;73;79;78;83;32;79;70;32;65;78;89;32;75;73;78;68;44;32;101;105;116;104;101;114;32;101;120;112;114;101;115;115;32;111;114;32;105;109;112;108;105;101;100;46;10;47;47;32;83;101;101;32;116;104;101;32;76;105;99;101;110;115;101;32;102;111;114;32;116;104;101;32;115;112;101;99;105;102;105;99;32;108;97;110;103;117;97;103;101;32;103;111;118;101;114;110;105;110;103;32;112;101;114;109;105;115;115;105;111;110;115;32;97;110;100;10;47;47;32;108;105;109;105;116;97;116;105;111;110;115;32;117;110;100;101;114;32;116;104;101;32;76;105;99;101;110;115;101;46;10;10;115;121;110;116;97;120;32;61;32;34;112;114;111;116;111;51;34;59;10;10;112;97;99;107;97;103;101;32;115;116;97;98;108;101;46;97;103;111;110;101;115;46;100;101;118;46;115;100;107;59;10;111;112;116;105;111;110;32;103;111;95;112;97;99;107;97;103;101;32;61;32;34;115;100;107;34;59;10;10;105;109;112;111;114;116;32;34;103;111;111;103;108;101;47;97;112;105;47;97;110;110;111;116;97;116;105;111;110;115;46;112;114;111;116;111;34;59;10;10;47;47;32;83;68;75;32;115;101;114;118;105;99;101;32;116;111;32;98;101;32;117;115;101;100;32;105;110;32;116;104;101;32;71;97;109;101;83;101;114;118;101;114;32;83;68;75;32;116;111;32;116;104;101;32;80;111;100;32;83;105;100;101;99;97;114;10;115;101;114;118;105;99;101;32;83;68;75;32;123;10;32;32;32;32;47;47;32;67;97;108;108;32;119;104;101;110;32;116;104;101;32;71;97;109;101;83;101;114;118;101;114;32;105;115;32;114;101;97;100;121;10;32;32;32;32;114;112;99;32;82;101;97;100;121;32;40;69;109;112;116;121;41;32;114;101;116;117;114;110;115;32;40;69;109;112;116;121;41;32;123;10;32;32;32;32;32;32;32;32;111;112;116;105;111;110;32;40;103;111;111;103;108;101;46;97;112;105;46;104;116;116;112;41;32;61;32;123;10;32;32;32;32;32;32;32;32;32;32;32;32;112;111;115;116;58;32;34;47;114;101;97;100;121;34;10;32;32;32;32;32;32;32;32;32;32;32;32;98;111;100;121;58;32;34;42;34;10;32;32;32;32;32;32;32;32;125;59;10;32;32;32;32;125;10;10;32;32;32;32;47;47;32;67;97;108;108;32;116;111;32;115;101;108;102;32;65;108;108;111;99;97;116;105;111;110;32;116;104;101;32;71;97;109;101;83;101;114;118;101;114;10;32;32;32;32;114;112;99;32;65;108;108;111;99;97;116;101;40;69;109;112;116;121;41;32;114;101;116;117;114;110;115;32;40;69;109;112;116;121;41;32;123;10;32;32;32;32;32;32;32;32;111;112;116;105;111;110;32;40;103;111;111;103;108;101;46;97;112;105;46;104;116;116;112;41;32;61;32;123;10;32;32;32;32;32;32;32;32;32;32;32;32;112;111;115;116;58;32;34;47;97;108;108;111;99;97;116;101;34;10;32;32;32;32;32;32;32;32;32;32;32;32;98;111;100;121;58;32;34;42;34;10;32;32;32;32;32;32;32;32;125;59;10;32;32;32;32;125;10;10;32;32;32;32;47;47;32;67;97;108;108;32;119;104;101;110;32;116;104;101;32;71;97;109;101;83;101;114;118;101;114;32;105;115;32;115;104;117;116;116;105;110;103;32;100;111;119;110;10;32;32;32;32;114;112;99;32;83;104;117;116;100;111;119;110;32;40;69;109;112;116;121;41;32;114;101;116;117;114;110;115;32;40;69;109;112;116;121;41;32;123;10;32;32;32;32;32;32;32;32;111;112;116;105;111;110;32;40;103;111;111;103;108;101;46;97;112;105;46;104;116;116;112;41;32;61;32;123;10;32;32;32;32;32;32;32;32;32;32;32;32;112;111;115;116;58;32;34;47;115;104;117;116;100;111;119;110;34;10;32;32;32;32;32;32;32;32;32;32;32;32;98;111;100;121;58;32;34;42;34;10;32;32;32;32;32;32;32;32;125;59;10;32;32;32;32;125;10;32;32;32;32;47;47;32;83;101;110;100;32;97;32;69;109;112;116;121;32;101;118;101;114;121;32;100;32;68;117;114;97;116;105;111;110;32;116;111;32;100;101;99;108;97;114;101;32;116;104;97;116;32;116;104;105;115;32;71;97;109;101;83;101;118;101;114;32;105;115;32;104;101;97;108;116;104;121;10;32;32;32;32;114;112;99;32;72;101;97;108;116;104;32;40;115;116;114;101;97;109;32;69;109;112;116;121;41;32;114;101;116;117;114;110;115;32;40;69;109;112;116;121;41;32;123;10;32;32;32;32;32;32;32;32;111;112;116;105;111;110;32;40;103;111;111;103;108;101;46;97;112;105;46;104;116;116;112;41;32;61;32;123;10;9;9;9;112;111;115;116;58;32;34;47;104;101;97;108;116;104;34;10;9;9;9;98;111;100;121;58;32;34;42;34;10;9;9;125;59;10;32;32;32;32;125;10;32;32;32;32;47;47;32;82;101;116;114;105;101;118;101;32;116;104;101;32;99;117;114;114;101;110;116;32;71;97;109;101;83;101;114;118;101;114;32;100;97;116;97;10;32;32;32;32;114;112;99;32;71;101;116;71;97;109;101;83;101;114;118;101;114;32;40;69;109;112;116;121;41;32;114;101;116;117;114;110;115;32;40;71;97;109;101;83;101;114;118;101;114;41;32;123;10;32;32;32;32;32;32;32;32;111;112;116;105;111;110;32;40;103;111;111;103;108;101;46;97;112;105;46;104;116;116;112;41;32;61;32;123;10;32;32;32;32;32;32;32;32;32;32;32;32;103;101;116;58;32;34;47;103;97;109;101;115;101;114;118;101;114;34;10;32;32;32;32;32;32;32;32;125;59;10;32;32;32;32;125;10;32;32;32;32;47;47;32;83;101;110;100;32;71;97;109;101;83;101;114;118;101;114;32;100;101;116;97;105;108;115;32;119;104;101;110;101;118;101;114;32;116;104;101;32;71;97;109;101;83;101;114;118;101;114;32;105;115;32;117;112;100;97;116;101;100;10;32;32;32;32;114;112;99;32;87;97;116;99;104;71;97;109;101;83;101;114;118;101;114;32;40;69;109;112;116;121;41;32;114;101;116;117;114;110;115;32;40;115;116;114;101;97;109;32;71;97;109;101;83;101;114;118;101;114;41;32;123;10;32;32;32;32;32;32;32;32;111;112;116;105;111;110;32;40;103;111;111;103;108;101;46;97;112;105;46;104;116;116;112;41;32;61;32;123;10;32;32;32;32;32;32;32;32;32;32;32;32;103;101;116;58;32;34;47;119;97;116;99;104;47;103;97;109;101;115;101;114;118;101;114;34;10;32;32;32;32;32;32;32;32;125;59;10;32;32;32;32;125;10;10;32;32;32;32;47;47;32;65;112;112;108;121;32;97;32;76;97;98;101;108;32;116;111;32;116;104;101;32;98;97;99;107;105;110;103;32;71;97;109;101;83;101;114;118;101;114;32;109;101;116;97;100;97;116;97;10;32;32;32;32;114;112;99;32;83;101;116;76;97;98;101;108;40;75;101;121;86;97;108;117;101;41;32;114;101;116;117;114;110;115;32;40;69;109;112;116;121;41;32;123;10;32;32;32;32;32;32;32;32;111;112;116;105;111;110;32;40;103;111;111;103;108;101;46;97;112;105;46;104;116;116;112;41;32;61;32;123;10;9;9;9;112;117;116;58;32;34;47;109;101;116;97;100;97;116;97;47;108;97;98;101;108;34;10;9;9;9;98;111;100;121;58;32;34;42;34;10;9;9;125;59;10;32;32;32;32;125;10;10;32;32;32;32;47;47;32;65;112;112;108;121;32;97;32;65;110;110;111;116;97;116;105;111;110;32;116;111;32;116;104;101;32;98;97;99;107;105;110;103;32;71;97;109;101;83;101;114;118;101;114;32;109;101;116;97;100;97;116;97;10;32;32;32;32;114;112;99;32;83;101;116;65;110;110;111;116;97;116;105;111;110;40;75;101;121;86;97;108;117;101;41;32;114;101;116;117;114;110;115;32;40;69;109;112;116;121;41;32;123;10;32;32;32;32;32;32;32;32;111;112;116;105;111;110;32;40;103;111;111;103;108;101;46;97;112;105;46;104;116;116;112;41;32;61;32;123;10;9;9;9;112;117;116;58;32;34;47;109;101;116;97;100;97;116;97;47;97;110;110;111;116;97;116;105;111;110;34;10;9;9;9;98;111;100;121;58;32;34;42;34;10;9;9;125;59;10;32;32;32;32;125;10;125;10;10;47;47;32;73;32;97;109;32;69;109;112;116;121;10;109;101;115;115;97;103;101;32;69;109;112;116;121;32;123;10;125;10;10;47;47;32;75;101;121;44;32;86;97;108;117;101;32;101;110;116;114;121;10;109;101;115;115;97;103;101;32;75;101;121;86;97;108;117;101;32;123;10;32;32;32;32;115;116;114;105;110;103;32;107;101;121;32;61;32;49;59;10;32;32;32;32;115;116;114;105;110;103;32;118;97;108;117;101;32;61;32;50;59;10;125;10;10;47;47;32;65;32;71;97;109;101;83;101;114;118;101;114;32;67;117;115;116;111;109;32;82;101;115;111;117;114;99;101;32;68;101;102;105;110;105;116;105;111;110;32;111;98;106;101;99;116;10;47;47;32;87;101;32;119;105;108;108;32;111;110;108;121;32;101;120;112;111;114;116;32;116;104;111;115;101;32;114;101;115;111;117;114;99;101;115;32;116;104;97;116;32;109;97;107;101;32;116;104;101;32;109;111;115;116;10;47;47;32;115;101;110;115;101;46;32;67;97;110;32;97;108;119;97;121;115;32;101;120;112;97;110;100;32;116;111;32;109;111;114;101;32;97;115;32;110;101;101;100;101;100;46;10;109;101;115;115;97;103;101;32;71;97;109;101;83;101;114;118;101;114;32;123;10;32;32;32;32;79;98;106;101;99;116;77;101;116;97;32;111;98;106;101;99;116;95;109;101;116;97;32;61;32;49;59;10;32;32;32;32;83;112;101;99;32;115;112;101;99;32;61;32;50;59;10;32;32;32;32;83;116;97;116;117;115;32;115;116;97;116;117;115;32;61;32;51;59;10;10;32;32;32;32;47;47;32;114;101;112;114;101;115;101;110;116;97;116;105;111;110;32;111;102;32;116;104;101;32;75;56;115;32;79;98;106;101;99;116;77;101;116;97;32;114;101;115;111;117;114;99;101;10;32;32;32;32;109;101;115;115;97;103;101;32;79;98;106;101;99;116;77;101;116;97;32;123;10;32;32;32;32;32;32;32;32;115;116;114;105;110;103;32;110;97;109;101;32;61;32;49;59;10;32;32;32;32;32;32;32;32;115;116;114;105;110;103;32;110;97;109;101;115;112;97;99;101;32;61;32;50;59;10;32;32;32;32;32;32;32;32;115;116;114;105;110;103;32;117;105;100;32;61;32;51;59;10;32;32;32;32;32;32;32;32;115;116;114;105;110;103;32;114;101;115;111;117;114;99;101;95;118;101;114;115;105;111;110;32;61;32;52;59;10;32;32;32;32;32;32;32;32;105;110;116;54;52;32;103;101;110;101;114;97;116;105;111;110;32;61;32;53;59;10;32;32;32;32;32;32;32;32;47;47;32;116;105;109;101;115;116;97;109;112;32;105;115;32;105;110;32;69;112;111;99;104;32;102;111;114;109;97;116;44;32;117;110;105;116;58;32;115;101;99;111;110;100;115;10;32;32;32;32;32;32;32;32;105;110;116;54;52;32;99;114;101;97;116;105;111;110;95;116;105;109;101;115;116;97;109;112;32;61;32;54;59;10;32;32;32;32;32;32;32;32;47;47;32;111;112;116;105;111;110;97;108;32;100;101;108;101;116;105;111;110;32;116;105;109;101;115;116;97;109;112;32;105;110;32;69;112;111;99;104;32;102;111;114;109;97;116;44;32;117;110;105;116;58;32;115;101;99;111;110;100;115;10;32;32;32;32;32;32;32;32;105;110;116;54;52;32;100;101;108;101;116;105;111;110;95;116;105;109;101;115;116;97;109;112;32;61;32;55;59;10;32;32;32;32;32;32;32;32;109;97;112;60;115;116;114;105;110;103;44;32;115;116;114;105;110;103;62;32;97;110;110;111;116;97;116;105;111;110;115;32;61;32;56;59;10;32;32;32;32;32;32;32;32;109;97;112;60;115;116;114;105;110;103;44;32;115;116;114;105;110;103;62;32;108;97;98;101;108;115;32;61;32;57;59;10;32;32;32;32;125;10;10;32;32;32;32;109;101;115;115;97;103;101;32;83;112;101;99;32;123;10;32;32;32;32;32;32;32;32;72;101;97;108;116;104;32;104;101;97;108;116;104;32;61;32;49;59;10;10;32;32;32;32;32;32;32;32;109;101;115;115;97;103;101;32;72;101;97;108;116;104;32;123;10;32;32;32;32;32;32;32;32;32;32;32;32;98;111;111;108;32;68;105;115;97;98;108;101;100;32;61;32;49;59;10;32;32;32;32;32;32;32;32;32;32;32;32;105;110;116;51;50;32;80;101;114;105;111;100;83;101;99;111;110;100;115;32;61;32;50;59;10;32;32;32;32;32;32;32;32;32;32;32;32;105;110;116;51;50;32;70;97;105;108;117;114;101;84;104;114;101;115;104;111;108;100;32;61;32;51;59;10;32;32;32;32;32;32;32;32;32;32;32;32;105;110;116;51;50;32;73;110;105;116;105;97;108;68;101;108;97;121;83;101;99;111;110;100;115;32;61;32;52;59;10;32;32;32;32;32;32;32;32;125;10;32;32;32;32;125;10;10;32;32;32;32;109;101;115;115;97;103;101;32;83;116;97;116;117;115;32;123;10;32;32;32;32;32;32;32;32;109;101;115;115;97;103;101;32;80;111;114;116;32;123;10;32;32;32;32;32;32;32;32;32;32;32;32;115;116;114;105;110;103;32;110;97;109;101;32;61;32;49;59;10;32;32;32;32;32;32;32;32;32;32;32;32;105;110;116;51;50;32;112;111;114;116;32;61;32;50;59;10;32;32;32;32;32;32;32;32;125;10;10;32;32;32;32;32;32;32;32;115;116;114;105;110;103;32;115;116;97;116;101;32;61;32;49;59;10;32;32;32;32;32;32;32;32;115;116;114;105;110;103;32;97;100;100;114;101;115;115;32;61;32;50;59;10;32;32;32;32;32;32;32;32;114;101;112;101;97;116;101;100;32;80;111;114;116;32;112;111;114;116;115;32;61;32;51;59;10;32;32;32;32;125;10;125]%N) = true. Proof. vm_compute. reflexivity. Qed.
(* /repo/_testdata/extend.proto *)
Example d_2 : is_ok (ParseBytes [] [47;47;32;67;111;112;121;114;105;103;104;116;32;40;99;41;32;50;48;49;53;44;32;71;111;111;103;108;101;32;73;110;99;46;10;47;47;10;47;47;32;76;105;99;101;110;115;101;100;32;117;110;100;101;114;32;116;104;101;32;65;112;97;99;104;101;32;76;105;99;101;110;115;101;44;32;86;101;114;115;105;111;110;32;50;46;48;32;40;116;104;101;32;34;76;105;99;101;110;115;101;34;41;59;10;47;47;32;121;111;117;32;109;97;121;32;110;111;116;32;117;115;101;32;116;104;105;115;32;102;105;108;101;32;101;120;99;101;112;116;32;105;110;32;99;111;109;112;108;105;97;110;99;101;32;119;105;116;104;32;116;104;101;32;76;105;99;101;110;115;101;46;10;47;47;32;89;111;117;32;109;97;121;32;111;98;116;97;105;110;32;97;32;99;111;112;121;32;111;102;32;116;104;101;32;76;105;99;101;110;115;101;32;97;116;10;47;47;10;47;47;32;32;32;32;32;104;116;116;112;58;47;47;119;119;119;46;97;112;97;99;104;101;46;111;114;103;47;108;105;99;101;110;115;101;115;47;76;73;67;69;78;83;69;45;50;46;48;10;47;47;10;47;47;32;85;110;108;101;115;115;32;114;101;113;117;105;114;101;100;32;98;121;32;97;112;112;108;105;99;97;98;108;101;32;108;97;119;32;111;114;32;97;103;114;101;101;100;32;116;111;32;105;110;32;119;114;105;116;105;110;103;44;32;115;111;102;116;119;97;114;101;10;47;47;32;100;105;115;116;114;105;98;117;116;101;100;32;117;110;100;101;114;32;116;104;101;32;76;105;99;101;110;115;101;32;105;115;32;100;105;115;116;114;105;98;117;116;101;100;32;111;110;32;97;110;32;34;65;83;32;73;83;34;32;66;65;83;73;83;44;10;47;47;32;87;73;84;72;79;85;84;32;87;65;82;82;65;78;84;73;69;83;32;79;82;32;67;79;78;68;73;84;73;79;78;83;32;79;70;32;65;78;89;32;75;73;78;68;44;32;101;105;116;104;101;114;32;101;120;112;114;101;115;115;32;111;114;32;105;109;112;108;105;101;100;46;10;47;47;32;83;101;101;32;116;104;101;32;76;105;99;101;110;115;101;32;102;111;114;32;116;104;101;32;115;112;101;99;105;102;105;99;32;108;97;110;103;117;97;103;101;32;103;111;118;101;114;110;105;110;103;32;112;101;114;109;105;115;115;105;111;110;115;32;97;110;100;10;47;47;32;108;105;109;105;116;97;116;105;111;110;115;32;117;110;100;101;114;32;116;104;101;32;76;105;99;101;110;115;101;46;10;10;115;121;110;116;97;120;32;61;32;34;112;114;111;116;111;51;34;59;10;10;112;97;99;107;97;103;101;32;103;111;111;103;108;101;46;97;112;105;59;10;10;105;109;112;111;114;116;32;34;103;111;111;103;108;101;47;97;112;105;47;104;116;116;112;46;112;114;111;116;111;34;59;10;105;109;112;111;114;116;32;34;103;111;111;103;108;101;47;112;114;111;116;111;98;117;102;47;100;101;115;99;114;105;112;116;111;114;46;112;114;111;116;111;34;59;10;10;111;112;116;105;111;110;32;103;111;95;112;97;99;107;97;103;101;32;61;32;34;103;111;111;103;108;101;46;103;111;108;97;110;103;46;111;114;103;47;103;101;110;112;114;111;116;111;47;103;111;111;103;108;101;97;112;105;115;47;97;112;105;47;97;110;110;111;116;97;116;105;111;110;115;59;97;110;110;111;116;97;116;105;111;110;115;34;59;10;111;112;116;105;111;110;32;106;97;118;97;95;109;117;108;116;105;112;108;101;95;102;105;108;101;115;32;61;32;116;114;117;101;59;10;111;112;116;105;111;110;32;106;97;118;97;95;111;117;116;101;114;95;99;108;97;115;115;110;97;109;101;32;61;32;34;65;110;110;111;116;97;116;105;111;110;115;80;114;111;116;111;34;59;10;111;112;116;105;111;110;32;106;97;118;97;95;112;97;99;107;97;103;101;32;61;32;34;99;111;109;46;103;111;111;103;108;101;46;97;112;105;34;59;10;111;112;116;105;111;110;32;111;98;106;99;95;99;108;97;115;115;95;112;114;101;102;105;120;32;61;32;34;71;65;80;73;34;59;10;10;101;120;116;101;110;100;32;103;111;111;103;108;101;46;112;114;111;116;111;98;117;102;46;77;101;116;104;111;100;79;112;116;105;111;110;115;32;123;10;32;32;32;32;47;47;32;83;101;101;32;96;72;116;116;112;82;117;108;101;96;46;10;32;32;32;32;72;116;116;112;82;117;108;101;32;104;116;116;112;32;61;32;55;50;50;57;53;55;50;56;59;10;125]%N) = true. Proof. vm_compute. reflexivity. Qed.
(* /repo/_testdata/extension_declaration.proto *)
Example d_3 : is_ok (ParseBytes [] [115;121;110;116;97;120;32;61;32;34;112;114;111;116;111;50;34;59;10;10;109;101;115;115;97;103;101;32;70;111;111;32;123;10;32;32;101;120;116;101;110;115;105;111;110;115;32;52;32;116;111;32;49;48;48;48;32;91;10;32;32;32;32;100;101;99;108;97;114;97;116;105;111;110;32;61;32;123;10;32;32;32;32;32;32;110;117;109;98;101;114;58;32;52;44;10;32;32;32;32;32;32;102;117;108;108;95;110;97;109;101;58;32;34;46;109;121;46;112;97;99;107;97;103;101;46;101;118;101;110;116;95;97;110;110;111;116;97;116;105;111;110;115;34;44;10;32;32;32;32;32;32;116;121;112;101;58;32;34;46;108;111;103;115;46;112;114;111;116;111;46;86;97;108;105;100;97;116;105;111;110;65;110;110;111;116;97;116;105;111;110;115;34;44;10;32;32;32;32;32;32;114;101;112;101;97;116;101;100;58;32;116;114;117;101;32;125;44;10;32;32;32;32;100;101;99;108;97;114;97;116;105;111;110;32;61;32;123;10;32;32;32;32;32;32;110;117;109;98;101;114;58;32;57;57;57;44;10;32;32;32;32;32;32;102;117;108;108;95;110;97;109;101;58;32;34;46;102;111;111;46;112;97;99;107;97;103;101;46;98;97;114;34;44;10;32;32;32;32;32;32;116;121;112;101;58;32;34;105;110;116;51;50;34;125;93;59;10;125;10;10;109;101;115;115;97;103;101;32;66;97;114;32;123;10;32;32;101;120;116;101;110;115;105;111;110;115;32;49;48;48;48;32;116;111;32;50;48;48;48;32;91;10;32;32;32;32;32;32;100;101;99;108;97;114;97;116;105;111;110;32;61;32;123;10;32;32;32;32;32;32;32;32;110;117;109;98;101;114;58;32;49;48;48;48;44;10;32;32;32;32;32;32;32;32;102;117;108;108;95;110;97;109;101;58;32;34;46;102;111;111;46;112;97;99;107;97;103;101;34;44;10;32;32;32;32;32;32;32;32;116;121;112;101;58;32;34;46;102;111;111;46;116;121;112;101;34;10;32;32;32;32;32;32;125;10;32;32;93;59;10;125;10]%N) = true. Proof. vm_compute. reflexivity. Qed.
(* /repo/_testdata/goProtoValidators.proto *)
Example d_4 : is_ok (ParseBytes [] [115;121;110;116;97;120;32;61;32;34;112;114;111;116;111;51;34;59;10;10;112;97;99;107;97;103;101;32;112;97;114;115;101;114;112;98;59;10;111;112;116;105;111;110;32;103;111;95;112;97;99;107;97;103;101;32;61;32;34;103;105;116;104;117;98;46;99;111;109;47;121;111;104;101;105;109;117;116;97;47;97;112;105;115;47;118;49;47;112;97;114;115;101;114;47;112;97;114;115;101;114;112;98;34;59;10;10;105;109;112;111;114;116;32;34;103;111;111;103;108;101;47;112;114;111;116;111;98;117;102;47;101;109;112;116;121;46;112;114;111;116;111;34;59;10;105;109;112;111;114;116;32;34;103;105;116;104;117;98;46;99;111;109;47;109;119;105;116;107;111;119;47;103;111;45;112;114;111;116;111;45;118;97;108;105;100;97;116;111;114;115;47;118;97;108;105;100;97;116;111;114;46;112;114;111;116;111;34;59;10;105;109;112;111;114;116;32;34;103;111;111;103;108;101;47;112;114;111;116;111;98;117;102;47;116;105;109;101;115;116;97;109;112;46;112;114;111;116;111;34;59;10;10;105;109;112;111;114;116;32;34;103;105;116;104;117;98;46;99;111;109;47;121;111;104;101;105;109;117;116;97;47;97;112;105;115;47;118;49;47;101;110;116;105;116;105;101;115;47;101;110;116;105;116;105;101;115;46;112;114;111;116;111;34;59;10;105;109;112;111;114;116;32;34;103;105;116;104;117;98;46;99;111;109;47;121;111;104;101;105;109;117;116;97;47;97;112;105;115;47;118;49;47;101;110;116;105;116;105;101;115;47;97;103;103;114;101;103;97;116;101;115;46;112;114;111;116;111;34;59;10;105;109;112;111;114;116;32;34;103;105;116;104;117;98;46;99;111;109;47;121;111;104;101;105;109;117;116;97;47;97;112;105;115;47;118;49;47;118;97;108;117;101;115;47;105;116;101;109;67;111;110;116;101;110;116;67;111;110;100;105;116;105;111;110;46;112;114;111;116;111;34;59;10;105;109;112;111;114;116;32;34;103;105;116;104;117;98;46;99;111;109;47;121;111;104;101;105;109;117;116;97;47;97;112;105;115;47;118;49;47;118;97;108;117;101;115;47;105;116;101;109;78;111;67;111;110;116;101;110;116;67;111;110;100;105;116;105;111;110;46;112;114;111;116;111;34;59;10;10;47;47;32;73;116;101;109;83;101;114;118;105;99;101;32;105;115;32;97;32;115;101;114;118;105;99;101;32;116;111;32;109;97;110;97;103;101;32;105;116;101;109;115;46;10;115;101;114;118;105;99;101;32;73;116;101;109;83;101;114;118;105;99;101;32;123;10;32;32;32;32;47;47;32;67;114;101;97;116;101;85;115;101;114;73;116;101;109;32;105;115;32;97;32;109;101;116;104;111;100;32;116;111;32;99;114;101;97;116;101;32;97;32;117;115;101;114;39;115;32;105;116;101;109;46;10;32;32;32;32;114;112;99;32;67;114;101;97;116;101;85;115;101;114;73;116;101;109;40;67;114;101;97;116;101;85;115;101;114;73;116;101;109;82;101;113;117;101;115;116;41;32;114;101;116;117;114;110;115;32;40;97;103;103;114;101;103;97;116;101;115;112;98;46;85;115;101;114;73;116;101;109;65;103;103;114;101;103;97;116;101;41;32;123;125;10;10;32;32;32;32;47;47;32;85;112;100;97;116;101;85;115;101;114;73;116;101;109;32;105;115;32;97;32;109;101;116;104;111;100;32;116;111;32;117;112;100;97;116;101;32;97;32;117;115;101;114;39;115;32;105;116;101;109;46;10;32;32;32;32;114;112;99;32;85;112;100;97;116;101;85;115;101;114;73;116;101;109;40;85;112;100;97;116;101;85;115;101;114;73;116;101;109;82;101;113;117;101;115;116;41;32;114;101;116;117;114;110;115;32;40;101;110;116;105;116;105;101;115;112;98;46;85;115;101;114;73;116;101;109;41;32;123;125;10;125;10;10;47;47;32;67;114;101;97;116;101;85;115;101;114;73;116;101;109;82;101;113;117;101;115;116;32;105;115;32;97;32;114;101;113;117;101;115;116;32;109;101;115;115;97;103;101;32;102;111;114;32;67;114;101;97;116;101;85;115;101;114;73;116;101;109;46;10;109;101;115;115;97;103;101;32;67;114;101;97;116;101;85;115;101;114;73;116;101;109;82;101;113;117;101;115;116;32;123;10;32;32;32;32;47;47;32;73;109;97;103;101;32;105;115;32;97;110;32;105;116;101;109;39;115;32;105;109;97;103;101;32;105;110;102;111;114;109;97;116;105;111;110;32;102;111;114;32;99;114;101;97;116;101;10;32;32;32;32;109;101;115;115;97;103;101;32;73;109;97;103;101;32;123;10;32;32;32;32;32;32;32;32;47;47;32;100;105;115;112;108;97;121;95;111;114;100;101;114;32;105;115;32;97;110;32;111;114;100;101;114;32;111;102;32;112;111;115;105;116;105;111;110;46;32;83;116;97;114;116;115;32;49;32;97;116;32;108;101;102;116;32;97;110;100;32;105;110;99;114;101;109;101;110;116;32;98;121;32;111;110;101;46;32;82;101;113;117;105;114;101;100;46;10;32;32;32;32;32;32;32;32;105;110;116;54;52;32;100;105;115;112;108;97;121;95;111;114;100;101;114;32;61;32;49;32;91;40;118;97;108;105;100;97;116;111;114;46;102;105;101;108;100;41;32;61;32;123;105;110;116;95;103;116;58;32;48;125;93;59;10;32;32;32;32;32;32;32;32;47;47;32;98;105;110;97;114;121;32;105;115;32;97;110;32;105;109;97;103;101;32;98;105;110;97;114;121;46;32;82;101;113;117;105;114;101;100;46;10;32;32;32;32;32;32;32;32;98;121;116;101;115;32;98;105;110;97;114;121;32;61;32;50;32;91;40;118;97;108;105;100;97;116;111;114;46;102;105;101;108;100;41;32;61;32;123;108;101;110;103;116;104;95;103;116;58;32;48;125;93;59;10;32;32;32;32;125;10;32;32;32;32;47;47;32;77;97;112;112;105;110;103;32;105;115;10;32;32;32;32;47;47;32;97;110;32;105;110;102;111;114;109;97;116;105;111;110;32;111;102;32;97;110;32;105;116;101;109;32;109;97;112;112;105;110;103;46;10;32;32;32;32;109;101;115;115;97;103;101;32;77;97;112;112;105;110;103;32;123;10;32;32;32;32;32;32;32;32;47;47;32;112;114;111;100;117;99;116;32;105;115;32;97;110;32;105;116;101;109;32;109;97;115;116;101;114;32;105;110;102;111;114;109;97;116;105;111;110;46;10;32;32;32;32;32;32;32;32;101;110;116;105;116;105;101;115;112;98;46;85;115;101;114;73;116;101;109;77;97;112;112;105;110;103;80;114;111;100;117;99;116;32;112;114;111;100;117;99;116;32;61;32;49;59;10;32;32;32;32;125;10;10;32;32;32;32;47;47;32;105;116;101;109;32;105;115;32;97;110;32;105;116;101;109;32;101;110;116;105;116;121;46;32;82;101;113;117;105;114;101;100;46;10;32;32;32;32;101;110;116;105;116;105;101;115;112;98;46;85;115;101;114;73;116;101;109;32;105;116;101;109;32;61;32;49;32;91;40;118;97;108;105;100;97;116;111;114;46;102;105;101;108;100;41;32;61;32;123;109;115;103;95;101;120;105;115;116;115;32;58;32;116;114;117;101;125;93;59;10;32;32;32;32;47;47;32;105;109;97;103;101;115;32;97;114;101;32;105;116;101;109;39;115;32;105;109;97;103;101;115;46;32;77;97;120;32;99;111;117;110;116;32;105;115;32;49;48;46;32;79;112;116;105;111;110;97;108;46;10;32;32;32;32;114;101;112;101;97;116;101;100;32;73;109;97;103;101;32;105;109;97;103;101;115;32;61;32;50;32;91;40;118;97;108;105;100;97;116;111;114;46;102;105;101;108;100;41;32;61;32;123;114;101;112;101;97;116;101;100;95;99;111;117;110;116;95;109;97;120;58;32;49;48;125;93;59;10;32;32;32;32;47;47;32;109;97;112;112;105;110;103;32;105;115;32;97;32;105;116;101;109;39;115;32;109;97;112;112;105;110;103;32;105;110;102;111;114;109;97;116;105;111;110;46;32;82;101;113;117;105;114;101;100;46;10;32;32;32;32;77;97;112;112;105;110;103;32;109;97;112;112;105;110;103;32;61;32;51;32;91;40;118;97;108;105;100;97;116;111;114;46;102;105;101;108;100;41;32;61;32;123;109;115;103;95;101;120;105;115;116;115;32;58;32;116;114;117;101;125;93;59;10;32;32;32;32;47;47;32;99;111;110;100;105;116;105;111;110;95;111;110;101;111;102;32;105;115;32;97;110;32;105;116;101;109;39;115;32;99;111;110;100;105;116;105;111;110;46;32;82;101;113;117;105;114;101;100;46;10;32;32;32;32;111;110;101;111;102;32;99;111;110;100;105;116;105;111;110;95;111;110;101;111;102;32;123;10;32;32;32;32;32;32;32;32;47;47;32;99;111;110;116;101;110;116;95;116;121;112;101;95;105;100;32;105;115;32;97;32;99;111;110;100;105;116;105;111;110;32;73;68;32;111;102;32;97;110;32;105;116;101;109;32;119;105;116;104;32;99;111;110;116;101;110;116;46;10;32;32;32;32;32;32;32;32;105;116;101;109;67;111;110;116;101;110;116;67;111;110;100;105;116;105;111;110;112;98;46;84;121;112;101;32;99;111;110;116;101;110;116;95;116;121;112;101;95;105;100;32;61;32;52;59;10;32;32;32;32;32;32;32;32;47;47;32;110;111;95;99;111;110;116;101;110;116;95;116;121;112;101;95;105;100;32;105;115;32;97;32;99;111;110;100;105;116;105;111;110;32;73;68;32;111;102;32;97;110;32;105;116;101;109;32;119;105;116;104;111;117;116;32;99;111;110;116;101;110;116;46;10;32;32;32;32;32;32;32;32;105;116;101;109;78;111;67;111;110;116;101;110;116;67;111;110;100;105;116;105;111;110;112;98;46;84;121;112;101;32;110;111;95;99;111;110;116;101;110;116;95;116;121;112;101;95;105;100;32;61;32;53;59;10;32;32;32;32;125;10;125;10;10]%N) = true. Proof. vm_compute. reflexivity. Qed.
(* /repo/_testdata/grpc-gateway_a_bit_of_everything.proto *)
Example d_5 : is_ok (ParseBytes [] [115;121;110;116;97;120;32;61;32;34;112;114;111;116;111;51;34;59;10;111;112;116;105;111;110;32;103;111;95;112;97;99;107;97;103;101;32;61;32;34;101;120;97;109;112;108;101;112;98;34;59;10;112;97;99;107;97;103;101;32;103;114;112;99;46;103;97;116;101;119;97;121;46;101;120;97;109;112;108;101;115;46;105;110;116;101;114;110;97;108;46;101;120;97;109;112;108;101;112;98;59;10;10;105;109;112;111;114;116;32;34;103;111;111;103;108;101;47;97;112;105;47;97;110;110;111;116;97;116;105;111;110;115;46;112;114;111;116;111;34;59;10;105;109;112;111;114;116;32;34;103;111;111;103;108;101;47;112;114;111;116;111;98;117;102;47;102;105;101;108;100;95;109;97;115;107;46;112;114;111;116;111;34;59;10;105;109;112;111;114;116;32;34;103;111;111;103;108;101;47;112;114;111;116;111;98;117;102;47;101;109;112;116;121;46;112;114;111;116;111;34;59;10;105;109;112;111;114;116;32;34;103;111;111;103;108;101;47;112;114;111;116;111;98;117;102;47;100;117;114;97;116;105;111;110;46;112;114;111;116;111;34;59;10;105;109;112;111;114;116;32;34;103;111;111;103;108;101;47;112;114;111;116;111;98;117;102;47;119;114;97;112;112;101;114;115;46;112;114;111;116;111;34;59;10;105;109;112;111;114;116;32;34;101;120;97;109;112;108;101;115;47;105;110;116;101;114;110;97;108;47;112;114;111;116;111;47;112;97;116;104;101;110;117;109;47;112;97;116;104;95;101;110;117;109;46;112;114;111;116;111;34;59;10;105;109;112;111;114;116;32;34;101;120;97;109;112;108;101;115;47;105;110;116;101;114;110;97;108;47;112;114;111;116;111;47;115;117;98;47;109;101;115;115;97;103;101;46;112;114;111;116;111;34;59;10;105;109;112;111;114;116;32;34;101;120;97;109;112;108;101;115;47;105;110;116;101;114;110;97;108;47;112;114;111;116;111;47;115;117;98;50;47;109;101;115;115;97;103;101;46;112;114;111;116;111;34;59;10;105;109;112;111;114;116;32;34;103;111;111;103;108;101;47;112;114;111;116;111;98;117;102;47;116;105;109;101;115;116;97;109;112;46;112;114;111;116;111;34;59;10;105;109;112;111;114;116;32;34;112;114;111;116;111;99;45;103;101;110;45;115;119;97;103;103;101;114;47;111;112;116;105;111;110;115;47;97;110;110;111;116;97;116;105;111;110;115;46;112;114;111;116;111;34;59;10;10;111;112;116;105;111;110;32;40;103;114;112;99;46;103;97;116;101;119;97;121;46;112;114;111;116;111;99;95;103;101;110;95;115;119;97;103;103;101;114;46;111;112;116;105;111;110;115;46;111;112;101;110;97;112;105;118;50;95;115;119;97;103;103;101;114;41;32;61;32;123;10;9;105;110;102;111;58;32;123;10;9;9;116;105;116;108;101;58;32;34;65;32;66;105;116;32;111;102;32;69;118;101;114;121;116;104;105;110;103;34;59;10;9;9;118;101;114;115;105;111;110;58;32;34;49;46;48;34;59;10;9;9;99;111;110;116;97;99;116;58;32;123;10;9;9;9;110;97;109;101;58;32;34;103;82;80;67;45;71;97;116;101;119;97;121;32;112;114;111;106;101;99;116;34;59;10;9;9;9;117;114;108;58;32;34;104;116;116;112;115;58;47;47;103;105;116;104;117;98;46;99;111;109;47;103;114;112;99;45;101;99;111;115;121;115;116;101;109;47;103;114;112;99;45;103;97;116;101;119;97;121;34;59;10;9;9;9;101;109;97;105;108;58;32;34;110;111;110;101;64;101;120;97;109;112;108;101;46;99;111;109;34;59;10;9;9;125;59;10;9;9;108;105;99;101;110;115;101;58;32;123;10;9;9;9;110;97;109;101;58;32;34;66;83;68;32;51;45;67;108;97;117;115;101;32;76;105;99;101;110;115;101;34;59;10;9;9;9;117;114;108;58;32;34;104;116;116;112;115;58;47;47;103;105;116;104;117;98;46;99;111;109;47;103;114;112;99;45;101;99;111;115;121;115;116;101;109;47;103;114;112;99;45;103;97;116;101;119;97;121;47;98;108;111;98;47;109;97;115;116;101;114;47;76;73;67;69;78;83;69;46;116;120;116;34;59;10;9;9;125;59;10;9;9;101;120;116;101;110;115;105;111;110;115;58;32;123;10;9;9;9;107;101;121;58;32;34;120;45;115;111;109;101;116;104;105;110;103;45;115;111;109;101;116;104;105;110;103;34;59;10;9;9;9;118;97;108;117;101;32;123;10;9;9;9;9;115;116;114;105;110;103;95;118;97;108;117;101;58;32;34;121;97;100;100;97;34;59;10;9;9;9;125;10;9;9;125;10;9;125;59;10;9;47;47;32;79;118;101;114;119;114;105;116;105;110;103;32;104;111;115;116;32;101;110;116;114;121;32;98;114;101;97;107;115;32;116;101;115;116;115;44;32;115;111;32;116;104;105;115;32;105;115;32;110;111;116;32;100;111;110;101;32;104;101;114;101;46;10;9;101;120;116;101;114;110;97;108;95;100;111;99;115;58;32;123;10;9;9;117;114;108;58;32;34;104;116;116;112;115;58;47;47;103;105;116;104;117;98;46;99;111;109;47;103;114;112;99;45;101;99;111;115;121;115;116;101;109;47;103;114;112;99;45;103;97;116;101;119;97;121;34;59;10;9;9;100;101;115;99;114;105;112;116;105;111;110;58;32;34;77;111;114;101;32;97;98;111;117;116;32;103;82;80;67;45;71;97;116;101;119;97;121;34;59;10;9;125;10;9;115;99;104;101;109;101;115;58;32;72;84;84;80;59;10;9;115;99;104;101;109;101;115;58;32;72;84;84;80;83;59;10;9;115;99;104;101;109;101;115;58;32;87;83;83;59;10;9;99;111;110;115;117;109;101;115;58;32;34;97;112;112;108;105;99;97;116;105;111;110;47;106;115;111;110;34;59;10;9;99;111;110;115;117;109;101;115;58;32;34;97;112;112;108;105;99;97;116;105;111;110;47;120;45;102;111;111;45;109;105;109;101;34;59;10;9;112;114;111;100;117;99;101;115;58;32;34;97;112;112;108;105;99;97;116;105;111;110;47;106;115;111;110;34;59;10;9;112;114;111;100;117;99;101;115;58;32;34;97;112;112;108;105;99;97;116;105;111;110;47;120;45;102;111;111;45;109;105;109;101;34;59;10;9;115;101;99;117;114;105;116;121;95;100;101;102;105;110;105;116;105;111;110;115;58;32;123;10;9;9;115;101;99;117;114;105;116;121;58;32;123;10;9;9;9;107;101;121;58;32;34;66;97;115;105;99;65;117;116;104;34;59;10;9;9;9;118;97;108;117;101;58;32;123;10;9;9;9;9;116;121;112;101;58;32;84;89;80;69;95;66;65;83;73;67;59;10;9;9;9;125;10;9;9;125;10;9;9;115;101;99;117;114;105;116;121;58;32;123;10;9;9;9;107;101;121;58;32;34;65;112;105;75;101;121;65;117;116;104;34;59;10;9;9;9;118;97;108;117;101;58;32;123;10;9;9;9;9;116;121;112;101;58;32;84;89;80;69;95;65;80;73;95;75;69;89;59;10;9;9;9;9;105;110;58;32;73;78;95;72;69;65;68;69;82;59;10;9;9;9;9;110;97;109;101;58;32;34;88;45;65;80;73;45;75;101;121;34;59;10;9;9;9;9;101;120;116;101;110;115;105;111;110;115;58;32;123;10;9;9;9;9;9;107;101;121;58;32;34;120;45;97;109;97;122;111;110;45;97;112;105;103;97;116;101;119;97;121;45;97;117;116;104;116;121;112;101;34;59;10;9;9;9;9;9;118;97;108;117;101;32;123;10;9;9;9;9;9;9;115;116;114;105;110;103;95;118;97;108;117;101;58;32;34;111;97;117;116;104;50;34;59;10;9;9;9;9;9;125;10;9;9;9;9;125;10;9;9;9;9;101;120;116;101;110;115;105;111;110;115;58;32;123;10;9;9;9;9;9;107;101;121;58;32;34;120;45;97;109;97;122;111;110;45;97;112;105;103;97;116;101;119;97;121;45;97;117;116;104;111;114;105;122;101;114;34;59;10;9;9;9;9;9;118;97;108;117;101;32;123;10;9;9;9;9;9;9;115;116;114;117;99;116;95;118;97;108;117;101;32;123;10;9;9;9;9;9;9;9;102;105;101;108;100;115;32;123;10;9;9;9;9;9;9;9;9;107;101;121;58;32;34;116;121;112;101;34;59;10;9;9;9;9;9;9;9;9;118;97;108;117;101;32;123;10;9;9;9;9;9;9;9;9;9;115;116;114;105;110;103;95;118;97;108;117;101;58;32;34;116;111;107;101;110;34;59;10;9;9;9;9;9;9;9;9;125;10;9;9;9;9;9;9;9;125;10;9;9;9;9;9;9;9;102;105;101;108;100;115;32;123;10;9;9;9;9;9;9;9;9;107;101;121;58;32;34;97;117;116;104;111;114;105;122;101;114;82;101;115;117;108;116;84;116;108;73;110;83;101;99;111;110;100;115;34;59;10;9;9;9;9;9;9;9;9;118;97;108;117;101;32;123;10;9;9;9;9;9;9;9;9;9;110;117;109;98;101;114;95;118;97;108;117;101;58;32;54;48;59;10;9;9;9;9;9;9;9;9;125;10;9;9;9;9;9;9;9;125;10;9;9;9;9;9;9;125;10;9;9;9;9;9;125;10;9;9;9;9;125;10;9;9;9;125;10;9;9;125;10;9;9;115;101;99;117;114;105;116;121;58;32;123;10;9;9;9;107;101;121;58;32;34;79;65;117;116;104;50;34;59;10;9;9;9;118;97;108;117;101;58;32;123;10;9;9;9;9;116;121;112;101;58;32;84;89;80;69;95;79;65;85;84;72;50;59;10;9;9;9;9;102;108;111;119;58;32;70;76;79;87;95;65;67;67;69;83;83;95;67;79;68;69;59;10;9;9;9;9;97;117;116;104;111;114;105;122;97;116;105;111;110;95;117;114;108;58;32;34;104;116;116;112;115;58;47;47;101;120;97;109;112;108;101;46;99;111;109;47;111;97;117;116;104;47;97;117;116;104;111;114;105;122;101;34;59;10;9;9;9;9;116;111;107;101;110;95;117;114;108;58;32;34;104;116;116;112;115;58;47;47;101;120;97;109;112;108;101;46;99;111;109;47;111;97;117;116;104;47;116;111;107;101;110;34;59;10;9;9;9;9;115;99;111;112;101;115;58;32;123;10;9;9;9;9;9;115;99;111;112;101;58;32;123;10;9;9;9;9;9;9;107;101;121;58;32;34;114;101;97;100;34;59;10;9;9;9;9;9;9;118;97;108;117;101;58;32;34;71;114;97;110;116;115;32;114;101;97;100;32;97;99;99;101;115;115;34;59;10;9;9;9;9;9;125;10;9;9;9;9;9;115;99;111;112;101;58;32;123;10;9;9;9;9;9;9;107;101;121;58;32;34;119;114;105;116;101;34;59;10;9;9;9;9;9;9;118;97;108;117;101;58;32;34;71;114;97;110;116;115;32;119;114;105;116;101;32;97;99;99;101;115;115;34;59;10;9;9;9;9;9;125;10;9;9;9;9;9;115;99;111;112;101;58;32;123;10;9;9;9;9;9;9;107;101;121;58;32;34;97;100;109;105;110;34;59;10;9;9;9;9;9;9;118;97;108;117;101;58;32;34;71;114;97;110;116;115;32;114;101;97;100;32;97;110;100;32;119;114;105;116;101;32;97;99;99;101;115;115;32;116;111;32;97;100;109;105;110;105;115;116;114;97;116;105;118;101;32;105;110;102;111;114;109;97;116;105;111;110;34;59;10;9;9;9;9;9;125;10;9;9;9;9;125;10;9;9;9;125;10;9;9;125;10;9;125;10;9;115;101;99;117;114;105;116;121;58;32;123;10;9;9;115;101;99;117;114;105;116;121;95;114;101;113;117;105;114;101;109;101;110;116;58;32;123;10;9;9;9;107;101;121;58;32;34;66;97;115;105;99;65;117;116;104;34;59;10;9;9;9;118;97;108;117;101;58;32;123;125;59;10;9;9;125;10;9;9;115;101;99;117;114;105;116;121;95;114;101;113;117;105;114;101;109;101;110;116;58;32;123;10;9;9;9;107;101;121;58;32;34;65;112;105;75;101;121;65;117;116;104;34;59;10;9;9;9;118;97;108;117;101;58;32;123;125;59;10;9;9;125;10;9;125;10;9;115;101;99;117;114;105;116;121;58;32;123;10;9;9;115;101;99;117;114;105;116;121;95;114;101;113;117;105;114;101;109;101;110;116;58;32;123;10;9;9;9;107;101;121;58;32;34;79;65;117;116;104;50;34;59;10;9;9;9;118;97;108;117;101;58;32;123;10;9;9;9;9;115;99;111;112;101;58;32;34;114;101;97;100;34;59;10;9;9;9;9;115;99;111;112;101;58;32;34;119;114;105;116;101;34;59;10;9;9;9;125;10;9;9;125;10;9;9;115;101;99;117;114;105;116;121;95;114;101;113;117;105;114;101;109;101;110;116;58;32;123;10;9;9;9;107;101;121;58;32;34;65;112;105;75;101;121;65;117;116;104;34;59;10;9;9;9;118;97;108;117;101;58;32;123;125;59;10;9;9;125;10;9;125;10;9;114;101;115;112;111;110;115;101;115;58;32;123;10;9;9;107;101;121;58;32;34;52;48;51;34;59;10;9;9;118;97;108;117;101;58;32;123;10;9;9;9;100;101;115;99;114;105;112;116;105;111;110;58;32;34;82;101;116;117;114;110;101;100;32;119;104;101;110;32;116;104;101;32;117;115;101;114;32;100;111;101;115;32;110;111;116;32;104;97;118;101;32;112;101;114;109;105;115;115;105;111;110;32;116;111;32;97;99;99;101;115;115;32;116;104;101;32;114;101;115;111;117;114;99;101;46;34;59;10;9;9;125;10;9;125;10;9;114;101;115;112;111;110;115;101;115;58;32;123;10;9;9;107;101;121;58;32;34;52;48;52;34;59;10;9;9;118;97;108;117;101;58;32;123;10;9;9;9;100;101;115;99;114;105;112;116;105;111;110;58;32;34;82;101;116;117;114;110;101;100;32;119;104;101;110;32;116;104;101;32;114;101;115;111;117;114;99;101;32;100;111;101;115;32;110;111;116;32;101;120;105;115;116;46;34;59;10;9;9;9;115;99;104;101;109;97;58;32;123;10;9;9;9;9;106;115;111;110;95;115;99;104;101;109;97;58;32;123;10;9;9;9;9;9;116;121;112;101;58;32;83;84;82;73;78;71;59;10;9;9;9;9;125;10;9;9;9;125;10;9;9;125;10;9;125;10;9;114;101;115;112;111;110;115;101;115;58;32;123;10;9;9;107;101;121;58;32;34;52;49;56;34;59;10;9;9;118;97;108;117;101;58;32;123;10;9;9;9;100;101;115;99;114;105;112;116;105;111;110;58;32;34;73;39;109;32;97;32;116;101;97;112;111;116;46;34;59;10;9;9;9;115;99;104;101;109;97;58;32;123;10;9;9;9;9;106;115;111;110;95;115;99;104;101;109;97;58;32;123;10;9;9;9;9;9;114;101;102;58;32;34;46;103;114;112;99;46;103;97;116;101;119;97;121;46;101;120;97;109;112;108;101;115;46;105;110;116;101;114;110;97;108;46;101;120;97;109;112;108;101;112;98;46;78;117;109;101;114;105;99;69;110;117;109;34;59;10;9;9;9;9;125;10;9;9;9;125;10;9;9;125;10;9;125;10;9;101;120;116;101;110;115;105;111;110;115;58;32;123;10;9;9;107;101;121;58;32;34;120;45;103;114;112;99;45;103;97;116;101;119;97;121;45;102;111;111;34;59;10;9;9;118;97;108;117;101;32;123;10;9;9;9;115;116;114;105;110;103;95;118;97;108;117;101;58;32;34;98;97;114;34;59;10;9;9;125;10;9;125;10;9;101;120;116;101;110;115;105;111;110;115;58;32;123;10;9;9;107;101;121;58;32;34;120;45;103;114;112;99;45;103;97;116;101;119;97;121;45;98;97;122;45;108;105;115;116;34;59;10;9;9;118;97;108;117;101;32;123;10;9;9;9;108;105;115;116;95;118;97;108;117;101;58;32;123;10;9;9;9;9;118;97;108;117;101;115;58;32;123;10;9;9;9;9;9;115;116;114;105;110;103;95;118;97;108;117;101;58;32;34;111;110;101;34;59;10;9;9;9;9;125;10;9;9;9;9;118;97;108;117;101;115;58;32;123;10;9;9;9;9;9;98;111;111;108;95;118;97;108;117;101;58;32;116;114;117;101;59;10;9;9;9;9;125;10;9;9;9;125;10;9;9;125;10;9;125;10;125;59;10;10;10;47;47;32;73;110;116;101;110;116;105;111;110;97;108;108;121;32;99;111;109;112;108;105;99;97;116;101;100;32;109;101;115;115;97;103;101;32;116;121;112;101;32;116;111;32;99;111;118;101;114;32;109;97;110;121;32;102;101;97;116;117;114;101;115;32;111;102;32;80;114;111;116;111;98;117;102;46;10;109;101;115;115;97;103;101;32;65;66;105;116;79;102;69;118;101;114;121;116;104;105;110;103;32;123;10;9;111;112;116;105;111;110;32;40;103;114;112;99;46;103;97;116;101;119;97;121;46;112;114;111;116;111;99;95;103;101;110;95;115;119;97;103;103;101;114;46;111;112;116;105;111;110;115;46;111;112;101;110;97;112;105;118;50;95;115;99;104;101;109;97;41;32;61;32;123;10;9;9;106;115;111;110;95;115;99;104;101;109;97;58;32;123;10;9;9;9;116;105;116;108;101;58;32;34;65;32;98;105;116;32;111;102;32;101;118;101;114;121;116;104;105;110;103;34;10;9;9;9;100;101;115;99;114;105;112;116;105;111;110;58;32;34;73;110;116;101;110;116;105;111;110;97;108;121;32;99;111;109;112;108;105;99;97;116;101;100;32;109;101;115;115;97;103;101;32;116;121;112;101;32;116;111;32;99;111;118;101;114;32;109;97;110;121;32;102;101;97;116;117;114;101;115;32;111;102;32;80;114;111;116;111;98;117;102;46;34;10;9;9;9;114;101;113;117;105;114;101;100;58;32;91;34;117;117;105;100;34;44;32;34;105;110;116;54;52;95;118;97;108;117;101;34;44;32;34;100;111;117;98;108;101;95;118;97;108;117;101;34;93;10;9;9;125;10;9;9;101;120;116;101;114;110;97;108;95;100;111;99;115;58;32;123;10;9;9;9;117;114;108;58;32;34;104;116;116;112;115;58;47;47;103;105;116;104;117;98;46;99;111;109;47;103;114;112;99;45;101;99;111;115;121;115;116;101;109;47;103;114;112;99;45;103;97;116;101;119;97;121;34;59;10;9;9;9;100;101;115;99;114;105;112;116;105;111;110;58;32;34;70;105;110;100;32;111;117;116;32;109;111;114;101;32;97;98;111;117;116;32;65;66;105;116;79;102;69;118;101;114;121;116;104;105;110;103;34;59;10;9;9;125;10;9;9;101;120;97;109;112;108;101;58;32;123;32;118;97;108;117;101;58;32;39;123;32;34;117;117;105;100;34;58;32;34;48;99;102;51;54;49;101;49;45;52;98;52;52;45;52;56;51;100;45;97;49;53;57;45;53;52;100;97;98;100;102;55;101;56;49;52;34;32;125;39;32;125;10;9;125;59;10;10;9;47;47;32;78;101;115;116;101;100;32;105;115;32;110;101;115;116;101;100;32;116;121;112;101;46;10;9;109;101;115;115;97;103;101;32;78;101;115;116;101;100;32;123;10;9;9;111;112;116;105;111;110;32;40;103;114;112;99;46;103;97;116;101;119;97;121;46;112;114;111;116;111;99;95;103;101;110;95;115;119;97;103;103;101;114;46;111;112;116;105;111;110;115;46;111;112;101;110;97;112;105;118;50;95;115;99;104;101;109;97;41;32;61;32;123;10;9;9;9;101;120;97;109;112;108;101;58;32;123;32;118;97;108;117;101;58;32;39;123;32;34;111;107;34;58;32;34;84;82;85;69;34;32;125;39;32;125;10;9;9;125;59;10;9;9;47;47;32;110;97;109;101;32;105;115;32;110;101;115;116;101;100;32;102;105;101;108;100;46;10;9;9;115;116;114;105;110;103;32;110;97;109;101;32;61;32;49;59;10;9;9;117;105;110;116;51;50;32;97;109;111;117;110;116;32;61;32;50;59;10;9;9;47;47;32;68;101;101;112;69;110;117;109;32;105;115;32;111;110;101;32;111;114;32;122;101;114;111;46;10;9;9;101;110;117;109;32;68;101;101;112;69;110;117;109;32;123;10;9;9;9;47;47;32;70;65;76;83;69;32;105;115;32;102;97;108;115;101;46;10;9;9;9;70;65;76;83;69;32;61;32;48;59;10;9;9;9;47;47;32;84;82;85;69;32;105;115;32;116;114;117;101;46;10;9;9;9;84;82;85;69;32;61;32;49;59;10;9;9;125;10;10;9;9;47;47;32;68;101;101;112;69;110;117;109;32;99;111;109;109;101;110;116;46;10;9;9;68;101;101;112;69;110;117;109;32;111;107;32;61;32;51;32;91;40;103;114;112;99;46;103;97;116;101;119;97;121;46;112;114;111;116;111;99;95;103;101;110;95;115;119;97;103;103;101;114;46;111;112;116;105;111;110;115;46;111;112;101;110;97;112;105;118;50;95;102;105;101;108;100;41;32;61;32;123;100;101;115;99;114;105;112;116;105;111;110;58;32;34;68;101;101;112;69;110;117;109;32;100;101;115;99;114;105;112;116;105;111;110;46;34;125;93;59;10;9;125;10;9;78;101;115;116;101;100;32;115;105;110;103;108;101;95;110;101;115;116;101;100;32;61;32;50;53;59;10;10;9;115;116;114;105;110;103;32;117;117;105;100;32;61;32;49;32;91;40;103;114;112;99;46;103;97;116;101;119;97;121;46;112;114;111;116;111;99;95;103;101;110;95;115;119;97;103;103;101;114;46;111;112;116;105;111;110;115;46;111;112;101;110;97;112;105;118;50;95;102;105;101;108;100;41;32;61;32;123;112;97;116;116;101;114;110;58;32;34;91;97;45;102;65;45;70;48;45;57;93;123;56;125;45;91;97;45;102;65;45;70;48;45;57;93;123;52;125;45;91;97;45;102;65;45;70;48;45;57;93;123;52;125;45;91;97;45;102;65;45;70;48;45;57;93;123;52;125;45;91;97;45;102;65;45;70;48;45;57;93;123;49;50;125;34;44;32;109;105;110;95;108;101;110;103;116;104;58;32;49;125;93;59;10;9;114;101;112;101;97;116;101;100;32;78;101;115;116;101;100;32;110;101;115;116;101;100;32;61;32;50;59;10;9;102;108;111;97;116;32;102;108;111;97;116;95;118;97;108;117;101;32;61;32;51;32;91;40;103;114;112;99;46;103;97;116;101;119;97;121;46;112;114;111;116;111;99;95;103;101;110;95;115;119;97;103;103;101;114;46;111;112;116;105;111;110;115;46;111;112;101;110;97;112;105;118;50;95;102;105;101;108;100;41;32;61;32;123;100;101;115;99;114;105;112;116;105;111;110;58;32;34;70;108;111;97;116;32;118;97;108;117;101;32;102;105;101;108;100;34;44;32;100;101;102;97;117;108;116;58;32;34;48;46;50;34;44;32;114;101;113;117;105;114;101;100;58;32;91;39;102;108;111;97;116;95;118;97;108;117;101;39;93;125;93;59;10;9;100;111;117;98;108;101;32;100;111;117;98;108;101;95;118;97;108;117;101;32;61;32;52;59;10;9;105;110;116;54;52;32;105;110;116;54;52;95;118;97;108;117;101;32;61;32;53;59;10;9;117;105;110;116;54;52;32;117;105;110;116;54;52;95;118;97;108;117;101;32;61;32;54;59;10;9;105;110;116;51;50;32;105;110;116;51;50;95;118;97;108;117;101;32;61;32;55;59;10;9;102;105;120;101;100;54;52;32;102;105;120;101;100;54;52;95;118;97;108;117;101;32;61;32;56;59;10;9;102;105;120;101;100;51;50;32;102;105;120;101;100;51;50;95;118;97;108;117;101;32;61;32;57;59;10;9;98;111;111;108;32;98;111;111;108;95;118;97;108;117;101;32;61;32;49;48;59;10;9;115;116;114;105;110;103;32;115;116;114;105;110;103;95;118;97;108;117;101;32;61;32;49;49;59;10;9;98;121;116;101;115;32;98;121;116;101;115;95;118;97;108;117;101;32;61;32;50;57;59;10;9;117;105;110;116;51;50;32;117;105;110;116;51;50;95;118;97;108;117;101;32;61;32;49;51;59;10;9;78;117;109;101;114;105;99;69;110;117;109;32;101;110;117;109;95;118;97;108;117;101;32;61;32;49;52;59;10;9;112;97;116;104;101;110;117;109;46;80;97;116;104;69;110;117;109;32;112;97;116;104;95;101;110;117;109;95;118;97;108;117;101;32;61;32;51;48;59;10;9;112;97;116;104;101;110;117;109;46;77;101;115;115;97;103;101;80;97;116;104;69;110;117;109;46;78;101;115;116;101;100;80;97;116;104;69;110;117;109;32;110;101;115;116;101;100;95;112;97;116;104;95;101;110;117;109;95;118;97;108;117;101;32;61;32;51;49;59;10;9;115;102;105;120;101;100;51;50;32;115;102;105;120;101;100;51;50;95;118;97;108;117;101;32;61;32;49;53;59;10;9;115;102;105;120;101;100;54;52;32;115;102;105;120;101;100;54;52;95;118;97;108;117;101;32;61;32;49;54;59;10;9;115;105;110;116;51;50;32;115;105;110;116;51;50;95;118;97;108;117;101;32;61;32;49;55;59;10;9;115;105;110;116;54;52;32;115;105;110;116;54;52;95;118;97;108;117;101;32;61;32;49;56;59;10;9;114;101;112;101;97;116;101;100;32;115;116;114;105;110;103;32;114;101;112;101;97;116;101;100;95;115;116;114;105;110;103;95;118;97;108;117;101;32;61;32;49;57;59;10;9;111;110;101;111;102;32;111;110;101;111;102;95;118;97;108;117;101;32;123;10;9;9;103;111;111;103;108;101;46;112;114;111;116;111;98;117;102;46;69;109;112;116;121;32;111;110;101;111;102;95;101;109;112;116;121;32;61;32;50;48;59;10;9;9;115;116;114;105;110;103;32;111;110;101;111;102;95;115;116;114;105;110;103;32;61;32;50;49;59;10;9;125;10;10;9;109;97;112;60;115;116;114;105;110;103;44;32;78;117;109;101;114;105;99;69;110;117;109;62;32;109;97;112;95;118;97;108;117;101;32;61;32;50;50;59;10;9;109;97;112;60;115;116;114;105;110;103;44;32;115;116;114;105;110;103;62;32;109;97;112;112;101;100;95;115;116;114;105;110;103;95;118;97;108;117;101;32;61;32;50;51;59;10;9;109;97;112;60;115;116;114;105;110;103;44;32;78;101;115;116;101;100;62;32;109;97;112;112;101;100;95;110;101;115;116;101;100;95;118;97;108;117;101;32;61;32;50;52;59;10;10;9;115;116;114;105;110;103;32;110;111;110;67;111;110;118;101;110;116;105;111;110;97;108;78;97;109;101;86;97;108;117;101;32;61;32;50;54;59;10;10;9;103;111;111;103;108;101;46;112;114;111;116;111;98;117;102;46;84;105;109;101;115;116;97;109;112;32;116;105;109;101;115;116;97;109;112;95;118;97;108;117;101;32;61;32;50;55;59;10;10;9;47;47;32;114;101;112;101;97;116;101;100;32;101;110;117;109;32;118;97;108;117;101;46;32;105;116;32;105;115;32;99;111;109;109;97;45;115;101;112;97;114;97;116;101;100;32;105;110;32;113;117;101;114;121;10;9;114;101;112;101;97;116;101;100;32;78;117;109;101;114;105;99;69;110;117;109;32;114;101;112;101;97;116;101;100;95;101;110;117;109;95;118;97;108;117;101;32;61;32;50;56;59;10;10;9;47;47;32;114;101;112;101;97;116;101;100;32;110;117;109;101;114;105;99;32;101;110;117;109;32;99;111;109;109;101;110;116;32;40;84;104;105;115;32;99;111;109;109;101;110;116;32;105;115;32;111;118;101;114;114;105;100;100;101;110;32;98;121;32;116;104;101;32;102;105;101;108;100;32;97;110;110;111;116;97;116;105;111;110;41;10;9;114;101;112;101;97;116;101;100;32;78;117;109;101;114;105;99;69;110;117;109;32;114;101;112;101;97;116;101;100;95;101;110;117;109;95;97;110;110;111;116;97;116;105;111;110;32;61;32;51;50;32;91;40;103;114;112;99;46;103;97;116;101;119;97;121;46;112;114;111;116;111;99;95;103;101;110;95;115;119;97;103;103;101;114;46;111;112;116;105;111;110;115;46;111;112;101;110;97;112;105;118;50;95;102;105;101;108;100;41;32;61;32;123;116;105;116;108;101;58;32;34;82;101;112;101;97;116;101;100;32;110;117;109;101;114;105;99;32;101;110;117;109;32;116;105;116;108;101;34;44;32;100;101;115;99;114;105;112;116;105;111;110;58;32;34;82;101;112;101;97;116;101;100;32;110;117;109;101;114;105;99;32;101;110;117;109;32;100;101;115;99;114;105;112;116;105;111;110;46;34;125;93;59;10;10;9;47;47;32;110;117;109;101;114;105;99;32;101;110;117;109;32;99;111;109;109;101;110;116;32;40;84;104;105;115;32;99;111;109;109;101;110;116;32;105;115;32;111;118;101;114;114;105;100;100;101;110;32;98;121;32;116;104;101;32;102;105;101;108;100;32;97;110;110;111;116;97;116;105;111;110;41;10;9;78;117;109;101;114;105;99;69;110;117;109;32;101;110;117;109;95;118;97;108;117;101;95;97;110;110;111;116;97;116;105;111;110;32;61;32;51;51;32;91;40;103;114;112;99;46;103;97;116;101;119;97;121;46;112;114;111;116;111;99;95;103;101;110;95;115;119;97;103;103;101;114;46;111;112;116;105;111;110;115;46;111;112;101;110;97;112;105;118;50;95;102;105;101;108;100;41;32;61;32;123;116;105;116;108;101;58;32;34;78;117;109;101;114;105;99;32;101;110;117;109;32;116;105;116;108;101;34;44;32;100;101;115;99;114;105;112;116;105;111;110;58;32;34;78;117;109;101;114;105;99;32;101;110;117;109;32;100;101;115;99;114;105;112;116;105;111;110;46;34;125;93;59;10;10;9;47;47;32;114;101;112;101;97;116;101;100;32;115;116;114;105;110;103;32;99;111;109;109;101;110;116;32;40;84;104;105;115;32;99;111;109;109;101;110;116;32;105;115;32;111;118;101;114;114;105;100;100;101;110;32;98;121;32;116;104;101;32;102;105;101;108;100;32;97;110;110;111;116;97;116;105;111;110;41;10;9;114;101;112;101;97;116;101;100;32;115;116;114;105;110;103;32;114;101;112;101;97;116;101;100;95;115;116;114;105;110;103;95;97;110;110;111;116;97;116;105;111;110;32;61;32;51;52;32;91;40;103;114;112;99;46;103;97;116;101;119;97;121;46;112;114;111;116;111;99;95;103;101;110;95;115;119;97;103;103;101;114;46;111;112;116;105;111;110;115;46;111;112;101;110;97;112;105;118;50;95;102;105;101;108;100;41;32;61;32;123;116;105;116;108;101;58;32;34;82;101;112;101;97;116;101;100;32;115;116;114;105;110;103;32;116;105;116;108;101;34;44;32;100;101;115;99;114;105;112;116;105;111;110;58;32;34;82;101;112;101;97;116;101;100;32;115;116;114;105;110;103;32;100;101;115;99;114;105;112;116;105;111;110;46;34;125;93;59;10;10;9;47;47;32;114;101;112;101;97;116;101;100;32;110;101;115;116;101;100;32;111;98;106;101;99;116;32;99;111;109;109;101;110;116;32;40;84;104;105;115;32;99;111;109;109;101;110;116;32;105;115;32;111;118;101;114;114;105;100;100;101;110;32;98;121;32;116;104;101;32;102;105;101;108;100;32;97;110;110;111;116;97;116;105;111;110;41;10;9;114;101;112;101;97;116;101;100;32;78;101;115;116;101;100;32;114;101;112;101;97;116;101;100;95;110;101;115;116;101;100;95;97;110;110;111;116;97;116;105;111;110;32;61;32;51;53;32;91;40;103;114;112;99;46;103;97;116;101;119;97;121;46;112;114;111;116;111;99;95;103;101;110;95;115;119;97;103;103;101;114;46;111;112;116;105;111;110;115;46;111;112;101;110;97;112;105;118;50;95;102;105;101;108;100;41;32;61;32;123;116;105;116;108;101;58;32;34;82;101;112;101;97;116;101;100;32;110;101;115;116;101;100;32;111;98;106;101;99;116;32;116;105;116;108;101;34;44;32;100;101;115;99;114;105;112;116;105;111;110;58;32;34;82;101;112;101;97;116;101;100;32;110;101;115;116;101;100;32;111;98;106;101;99;116;32;100;101;115;99;114;105;112;116;105;111;110;46;34;125;93;59;10;10;9;47;47;32;110;101;115;116;101;100;32;111;98;106;101;99;116;32;99;111;109;109;101;110;116;115;32;40;84;104;105;115;32;99;111;109;109;101;110;116;32;105;115;32;111;118;101;114;114;105;100;100;101;110;32;98;121;32;116;104;101;32;102;105;101;108;100;32;97;110;110;111;116;97;116;105;111;110;41;10;9;78;101;115;116;101;100;32;110;101;115;116;101;100;95;97;110;110;111;116;97;116;105;111;110;32;61;32;51;54;32;91;40;103;114;112;99;46;103;97;116;101;119;97;121;46;112;114;111;116;111;99;95;103;101;110;95;115;119;97;103;103;101;114;46;111;112;116;105;111;110;115;46;111;112;101;110;97;112;105;118;50;95;102;105;101;108;100;41;32;61;32;123;116;105;116;108;101;58;32;34;78;101;115;116;101;100;32;111;98;106;101;99;116;32;116;105;116;108;101;34;44;32;100;101;115;99;114;105;112;116;105;111;110;58;32;34;78;101;115;116;101;100;32;111;98;106;101;99;116;32;100;101;115;99;114;105;112;116;105;111;110;46;34;125;93;59;10;10;9;105;110;116;54;52;32;105;110;116;54;52;95;111;118;101;114;114;105;100;101;95;116;121;112;101;32;61;32;51;55;32;91;40;103;114;112;99;46;103;97;116;101;119;97;121;46;112;114;111;116;111;99;95;103;101;110;95;115;119;97;103;103;101;114;46;111;112;116;105;111;110;115;46;111;112;101;110;97;112;105;118;50;95;102;105;101;108;100;41;32;61;32;123;116;121;112;101;58;32;73;78;84;69;71;69;82;125;93;59;10;125;10;10;47;47;32;65;66;105;116;79;102;69;118;101;114;121;116;104;105;110;103;82;101;112;101;97;116;101;100;32;105;115;32;117;115;101;100;32;116;111;32;118;97;108;105;100;97;116;101;32;114;101;112;101;97;116;101;100;32;112;97;116;104;32;112;97;114;97;109;101;116;101;114;32;102;117;110;99;116;105;111;110;97;108;105;116;121;10;109;101;115;115;97;103;101;32;65;66;105;116;79;102;69;118;101;114;121;116;104;105;110;103;82;101;112;101;97;116;101;100;32;123;10;9;111;112;116;105;111;110;32;40;103;114;112;99;46;103;97;116;101;119;97;121;46;112;114;111;116;111;99;95;103;101;110;95;115;119;97;103;103;101;114;46;111;112;116;105;111;110;115;46;111;112;101;110;97;112;105;118;50;95;115;99;104;101;109;97;41;32;61;32;123;10;9;9;101;120;97;109;112;108;101;58;32;123;32;118;97;108;117;101;58;32;39;123;32;34;112;97;116;104;95;114;101;112;101;97;116;101;100;95;98;111;111;108;95;118;97;108;117;101;34;58;32;91;116;114;117;101;44;32;116;114;117;101;44;32;102;97;108;115;101;44;32;116;114;117;101;93;44;32;34;112;97;116;104;95;114;101;112;101;97;116;101;100;95;105;110;116;51;50;95;118;97;108;117;101;34;58;32;91;49;44;32;50;44;32;51;93;32;125;39;32;125;10;9;125;59;10;10;9;47;47;32;114;101;112;101;97;116;101;100;32;118;97;108;117;101;115;46;32;116;104;101;121;32;97;114;101;32;99;111;109;109;97;45;115;101;112;97;114;97;116;101;100;32;105;110;32;112;97;116;104;10;9;114;101;112;101;97;116;101;100;32;102;108;111;97;116;32;112;97;116;104;95;114;101;112;101;97;116;101;100;95;102;108;111;97;116;95;118;97;108;117;101;32;61;32;49;59;10;9;114;101;112;101;97;116;101;100;32;100;111;117;98;108;101;32;112;97;116;104;95;114;101;112;101;97;116;101;100;95;100;111;117;98;108;101;95;118;97;108;117;101;32;61;32;50;59;10;9;114;101;112;101;97;116;101;100;32;105;110;116;54;52;32;112;97;116;104;95;114;101;112;101;97;116;101;100;95;105;110;116;54;52;95;118;97;108;117;101;32;61;32;51;59;10;9;114;101;112;101;97;116;101;100;32;117;105;110;116;54;52;32;112;97;116;104;95;114;101;112;101;97;116;101;100;95;117;105;110;116;54;52;95;118;97;108;117;101;32;61;32;52;59;10;9;114;101;112;101;97;116;101;100;32;105;110;116;51;50;32;112;97;116;104;95;114;101;112;101;97;116;101;100;95;105;110;116;51;50;95;118;97;108;117;101;32;61;32;53;59;10;9;114;101;112;101;97;116;101;100;32;102;105;120;101;100;54;52;32;112;97;116;104;95;114;101;112;101;97;116;101;100;95;102;105;120;101;100;54;52;95;118;97;108;117;101;32;61;32;54;59;10;9;114;101;112;101;97;116;101;100;32;102;105;120;101;100;51;50;32;112;97;116;104;95;114;101;112;101;97;116;101;100;95;102;105;120;101;100;51;50;95;118;97;108;117;101;32;61;32;55;59;10;9;114;101;112;101;97;116;101;100;32;98;111;111;108;32;112;97;116;104;95;114;101;112;101;97;116;101;100;95;98;111;111;108;95;118;97;108;117;101;32;61;32;56;59;10;9;114;101;112;101;97;116;101;100;32;115;116;114;105;110;103;32;112;97;116;104;95;114;101;112;101;97;116;101;100;95;115;116;114;105;110;103;95;118;97;108;117;101;32;61;32;57;59;10;9;114;101;112;101;97;116;101;100;32;98;121;116;101;115;32;112;97;116;104;95;114;101;112;101;97;116;101;100;95;98;121;116;101;115;95;118;97;108;117;101;32;61;32;49;48;59;10;9;114;101;112;101;97;116;101;100;32;117;105;110;116;51;50;32;112;97;116;104;95;114;101;112;101;97;116;101;100;95;117;105;110;116;51;50;95;118;97;108;117;101;32;61;32;49;49;59;10;9;114;101;112;101;97;116;101;100;32;78;117;109;101;114;105;99;69;110;117;109;32;112;97;116;104;95;114;101;112;101;97;116;101;100;95;101;110;117;109;95;118;97;108;117;101;32;61;32;49;50;59;10;9;114;101;112;101;97;116;101;100;32;115;102;105;120;101;100;51;50;32;112;97;116;104;95;114;101;112;101;97;116;101;100;95;115;102;105;120;101;100;51;50;95;118;97;108;117;101;32;61;32;49;51;59;10;9;114;101;112;101;97;116;101;100;32;115;102;105;120;101;100;54;52;32;112;97;116;104;95;114;101;112;101;97;116;101;100;95;115;102;105;120;101;100;54;52;95;118;97;108;117;101;32;61;32;49;52;59;10;9;114;101;112;101;97;116;101;100;32;115;105;110;116;51;50;32;112;97;116;104;95;114;101;112;101;97;116;101;100;95;115;105;110;116;51;50;95;118;97;108;117;101;32;61;32;49;53;59;10;9;114;101;112;101;97;116;101;100;32;115;105;110;116;54;52;32;112;97;116;104;95;114;101;112;101;97;116;101;100;95;115;105;110;116;54;52;95;118;97;108;117;101;32;61;32;49;54;59;10;125;10;10;109;101;115;115;97;103;101;32;66;111;100;121;32;123;10;9;115;116;114;105;110;103;32;110;97;109;101;32;61;32;49;59;10;125;10;10;109;101;115;115;97;103;101;32;77;101;115;115;97;103;101;87;105;116;104;66;111;100;121;32;123;10;9;115;116;114;105;110;103;32;105;100;32;61;32;49;59;10;9;66;111;100;121;32;100;97;116;97;32;61;32;50;59;10;125;10;10;10;47;47;32;78;117;109;101;114;105;99;69;110;117;109;32;105;115;32;111;110;101;32;111;114;32;122;101;114;111;46;10;101;110;117;109;32;78;117;109;101;114;105;99;69;110;117;109;32;123;10;9;47;47;32;90;69;82;79;32;109;101;97;110;115;32;48;10;9;90;69;82;79;32;61;32;48;59;10;9;47;47;32;79;78;69;32;109;101;97;110;115;32;49;10;9;79;78;69;32;61;32;49;59;10;125;10;10;47;47;32;85;112;100;97;116;101;86;50;82;101;113;117;101;115;116;32;114;101;113;117;101;115;116;32;102;111;114;32;117;112;100;97;116;101;32;105;110;99;108;117;100;101;115;32;116;104;101;32;109;101;115;115;97;103;101;32;97;110;100;32;116;104;101;32;117;112;100;97;116;101;32;109;97;115;107;10;109;101;115;115;97;103;101;32;85;112;100;97;116;101;86;50;82;101;113;117;101;115;116;32;123;10;9;65;66;105;116;79;102;69;118;101;114;121;116;104;105;110;103;32;97;98;101;32;61;32;49;59;10;9;103;111;111;103;108;101;46;112;114;111;116;111;98;117;102;46;70;105;101;108;100;77;97;115;107;32;117;112;100;97;116;101;95;109;97;115;107;32;61;32;50;59;10;125;10;10;47;47;32;65;66;105;116;79;102;69;118;101;114;121;116;104;105;110;103;32;115;101;114;118;105;99;101;32;105;115;32;117;115;101;100;32;116;111;32;118;97;108;105;100;97;116;101;32;116;104;97;116;32;65;80;73;115;32;119;105;116;104;32;99;111;109;112;108;105;99;97;116;101;100;10;47;47;32;112;114;111;116;111;32;109;101;115;115;97;103;101;115;32;97;110;100;32;85;82;76;32;116;101;109;112;108;97;116;101;115;32;97;114;101;32;115;116;105;108;108;32;112;114;111;99;101;115;115;101;100;32;99;111;114;114;101;99;116;108;121;46;10;115;101;114;118;105;99;101;32;65;66;105;116;79;102;69;118;101;114;121;116;104;105;110;103;83;101;114;118;105;99;101;32;123;10;10;9;111;112;116;105;111;110;32;40;103;114;112;99;46;103;97;116;101;119;97;121;46;112;114;111;116;111;99;95;103;101;110;95;115;119;97;103;103;101;114;46;111;112;116;105;111;110;115;46;111;112;101;110;97;112;105;118;50;95;116;97;103;41;32;61;32;123;10;9;9;100;101;115;99;114;105;112;116;105;111;110;58;32;34;65;66;105;116;79;102;69;118;101;114;121;116;104;105;110;103;83;101;114;118;105;99;101;32;100;101;115;99;114;105;112;116;105;111;110;32;45;45;32;119;104;105;99;104;32;115;104;111;117;108;100;32;110;111;116;32;98;101;32;117;115;101;100;32;105;110;32;112;108;97;99;101;32;111;102;32;116;104;101;32;100;111;99;117;109;101;110;116;97;116;105;111;110;32;99;111;109;109;101;110;116;33;34;10;9;9;101;120;116;101;114;110;97;108;95;100;111;99;115;58;32;123;10;9;9;9;117;114;108;58;32;34;104;116;116;112;115;58;47;47;103;105;116;104;117;98;46;99;111;109;47;103;114;112;99;45;101;99;111;115;121;115;116;101;109;47;103;114;112;99;45;103;97;116;101;119;97;121;34;59;10;9;9;9;100;101;115;99;114;105;112;116;105;111;110;58;32;34;70;105;110;100;32;111;117;116;32;109;111;114;101;32;97;98;111;117;116;32;69;99;104;111;83;101;114;118;105;99;101;34;59;10;9;9;125;10;9;125;59;10;10;9;47;47;32;67;114;101;97;116;101;32;97;32;110;101;119;32;65;66;105;116;79;102;69;118;101;114;121;116;104;105;110;103;10;9;47;47;10;9;47;47;32;84;104;105;115;32;65;80;73;32;99;114;101;97;116;101;115;32;97;32;110;101;119;32;65;66;105;116;79;102;69;118;101;114;121;116;104;105;110;103;10;9;114;112;99;32;67;114;101;97;116;101;40;65;66;105;116;79;102;69;118;101;114;121;116;104;105;110;103;41;32;114;101;116;117;114;110;115;32;40;65;66;105;116;79;102;69;118;101;114;121;116;104;105;110;103;41;32;123;10;9;9;111;112;116;105;111;110;32;40;103;111;111;103;108;101;46;97;112;105;46;104;116;116;112;41;32;61;32;123;10;9;9;9;112;111;115;116;58;32;34;47;118;49;47;101;120;97;109;112;108;101;47;97;95;98;105;116;95;111;102;95;101;118;101;114;121;116;104;105;110;103;47;123;102;108;111;97;116;95;118;97;108;117;101;125;47;123;100;111;117;98;108;101;95;118;97;108;117;101;125;47;123;105;110;116;54;52;95;118;97;108;117;101;125;47;115;101;112;97;114;97;116;111;114;47;123;117;105;110;116;54;52;95;118;97;108;117;101;125;47;123;105;110;116;51;50;95;118;97;108;117;101;125;47;123;102;105;120;101;100;54;52;95;118;97;108;117;101;125;47;123;102;105;120;101;100;51;50;95;118;97;108;117;101;125;47;123;98;111;111;108;95;118;97;108;117;101;125;47;123;115;116;114;105;110;103;95;118;97;108;117;101;61;115;116;114;112;114;101;102;105;120;47;42;125;47;123;117;105;110;116;51;50;95;118;97;108;117;101;125;47;123;115;102;105;120;101;100;51;50;95;118;97;108;117;101;125;47;123;115;102;105;120;101;100;54;52;95;118;97;108;117;101;125;47;123;115;105;110;116;51;50;95;118;97;108;117;101;125;47;123;115;105;110;116;54;52;95;118;97;108;117;101;125;47;123;110;111;110;67;111;110;118;101;110;116;105;111;110;97;108;78;97;109;101;86;97;108;117;101;125;47;123;101;110;117;109;95;118;97;108;117;101;125;47;123;112;97;116;104;95;101;110;117;109;95;118;97;108;117;101;125;47;123;110;101;115;116;101;100;95;112;97;116;104;95;101;110;117;109;95;118;97;108;117;101;125;47;123;101;110;117;109;95;118;97;108;117;101;95;97;110;110;111;116;97;116;105;111;110;125;34;10;9;9;125;59;10;9;125;10;9;114;112;99;32;67;114;101;97;116;101;66;111;100;121;40;65;66;105;116;79;102;69;118;101;114;121;116;104;105;110;103;41;32;114;101;116;117;114;110;115;32;40;65;66;105;116;79;102;69;118;101;114;121;116;104;105;110;103;41;32;123;10;9;9;111;112;116;105;111;110;32;40;103;111;111;103;108;101;46;97;112;105;46;104;116;116;112;41;32;61;32;123;10;9;9;9;112;111;115;116;58;32;34;47;118;49;47;101;120;97;109;112;108;101;47;97;95;98;105;116;95;111;102;95;101;118;101;114;121;116;104;105;110;103;34;10;9;9;9;98;111;100;121;58;32;34;42;34;10;9;9;125;59;10;9;125;10;9;114;112;99;32;76;111;111;107;117;112;40;115;117;98;50;46;73;100;77;101;115;115;97;103;101;41;32;114;101;116;117;114;110;115;32;40;65;66;105;116;79;102;69;118;101;114;121;116;104;105;110;103;41;32;123;10;9;9;111;112;116;105;111;110;32;40;103;111;111;103;108;101;46;97;112;105;46;104;116;116;112;41;32;61;32;123;10;9;9;9;103;101;116;58;32;34;47;118;49;47;101;120;97;109;112;108;101;47;97;95;98;105;116;95;111;102;95;101;118;101;114;121;116;104;105;110;103;47;123;117;117;105;100;125;34;10;9;9;125;59;10;9;125;10;9;114;112;99;32;85;112;100;97;116;101;40;65;66;105;116;79;102;69;118;101;114;121;116;104;105;110;103;41;32;114;101;116;117;114;110;115;32;40;103;111;111;103;108;101;46;112;114;111;116;111;98;117;102;46;69;109;112;116;121;41;32;123;10;9;9;111;112;116;105;111;110;32;40;103;111;111;103;108;101;46;97;112;105;46;104;116;116;112;41;32;61;32;123;10;9;9;9;112;117;116;58;32;34;47;118;49;47;101;120;97;109;112;108;101;47;97;95;98;105;116;95;111;102;95;101;118;101;114;121;116;104;105;110;103;47;123;117;117;105;100;125;34;10;9;9;9;98;111;100;121;58;32;34;42;34;10;9;9;125;59;10;9;125;10;9;114;112;99;32;85;112;100;97;116;101;86;50;40;85;112;100;97;116;101;86;50;82;101;113;117;101;115;116;41;32;114;101;116;117;114;110;115;32;40;103;111;111;103;108;101;46;112;114;111;116;111;98;117;102;46;69;109;112;116;121;41;32;123;10;9;9;111;112;116;105;111;110;32;40;103;111;111;103;108;101;46;97;112;105;46;104;116;116;112;41;32;61;32;123;10;9;9;9;112;117;116;58;32;34;47;118;50;47;101;120;97;109;112;108;101;47;97;95;98;105;116;95;111;102;95;101;118;101;114;121;116;104;105;110;103;47;123;97;98;101;46;117;117;105;100;125;34;10;9;9;9;98;111;100;121;58;32;34;97;98;101;34;10;9;9;9;97;100;100;105;116;105;111;110;97;108;95;98;105;110;100;105;110;103;115;58;32;91;10;9;9;9;9;123;10;9;9;9;9;9;112;97;116;99;104;58;32;34;47;118;50;47;101;120;97;109;112;108;101;47;97;95;98;105;116;95;111;102;95;101;118;101;114;121;116;104;105;110;103;47;123;97;98;101;46;117;117;105;100;125;34;10;9;9;9;9;9;98;111;100;121;58;32;34;97;98;101;34;10;9;9;9;9;125;44;10;9;9;9;9;123;10;9;9;9;9;9;112;97;116;99;104;58;32;34;47;118;50;97;47;101;120;97;109;112;108;101;47;97;95;98;105;116;95;111;102;95;101;118;101;114;121;116;104;105;110;103;47;123;97;98;101;46;117;117;105;100;125;34;10;9;9;9;9;9;98;111;100;121;58;32;34;42;34;10;9;9;9;9;125;10;9;9;9;93;10;9;9;125;59;10;9;125;10;10;9;114;112;99;32;68;101;108;101;116;101;40;115;117;98;50;46;73;100;77;101;115;115;97;103;101;41;32;114;101;116;117;114;110;115;32;40;103;111;111;103;108;101;46;112;114;111;116;111;98;117;102;46;69;109;112;116;121;41;32;123;10;9;9;111;112;116;105;111;110;32;40;103;111;111;103;108;101;46;97;112;105;46;104;116;116;112;41;32;61;32;123;10;9;9;9;100;101;108;101;116;101;58;32;34;47;118;49;47;101;120;97;109;112;108;101;47;97;95;98;105;116;95;111;102;95;101;118;101;114;121;116;104;105;110;103;47;123;117;117;105;100;125;34;10;9;9;125;59;10;9;9;111;112;116;105;111;110;32;40;103;114;112;99;46;103;97;116;101;119;97;121;46;112;114;111;116;111;99;95;103;101;110;95;115;119;97;103;103;101;114;46;111;112;116;105;111;110;115;46;111;112;101;110;97;112;105;118;50;95;111;112;101;114;97;116;105;111;110;41;32;61;32;123;10;9;9;9;115;101;99;117;114;105;116;121;58;32;123;10;9;9;9;9;115;101;99;117;114;105;116;121;95;114;101;113;117;105;114;101;109;101;110;116;58;32;123;10;9;9;9;9;9;107;101;121;58;32;34;65;112;105;75;101;121;65;117;116;104;34;59;10;9;9;9;9;9;118;97;108;117;101;58;32;123;125;10;9;9;9;9;125;10;9;9;9;9;115;101;99;117;114;105;116;121;95;114;101;113;117;105;114;101;109;101;110;116;58;32;123;10;9;9;9;9;9;107;101;121;58;32;34;79;65;117;116;104;50;34;59;10;9;9;9;9;9;118;97;108;117;101;58;32;123;10;9;9;9;9;9;9;115;99;111;112;101;58;32;34;114;101;97;100;34;59;10;9;9;9;9;9;9;115;99;111;112;101;58;32;34;119;114;105;116;101;34;59;10;9;9;9;9;9;125;10;9;9;9;9;125;10;9;9;9;125;10;9;9;9;101;120;116;101;110;115;105;111;110;115;58;32;123;10;9;9;9;9;107;101;121;58;32;34;120;45;105;114;114;101;118;101;114;115;105;98;108;101;34;59;10;9;9;9;9;118;97;108;117;101;32;123;10;9;9;9;9;9;98;111;111;108;95;118;97;108;117;101;58;32;116;114;117;101;59;10;9;9;9;9;125;10;9;9;9;125;10;9;9;125;59;10;9;125;10;9;114;112;99;32;71;101;116;81;117;101;114;121;40;65;66;105;116;79;102;69;118;101;114;121;116;104;105;110;103;41;32;114;101;116;117;114;110;115;32;40;103;111;111;103;108;101;46;112;114;111;116;111;98;117;102;46;69;109;112;116;121;41;32;123;10;9;9;111;112;116;105;111;110;32;40;103;111;111;103;108;101;46;97;112;105;46;104;116;116;112;41;32;61;32;123;10;9;9;9;103;101;116;58;32;34;47;118;49;47;101;120;97;109;112;108;101;47;97;95;98;105;116;95;111;102;95;101;118;101;114;121;116;104;105;110;103;47;113;117;101;114;121;47;123;117;117;105;100;125;34;10;9;9;125;59;10;9;9;111;112;116;105;111;110;32;40;103;114;112;99;46;103;97;116;101;119;97;121;46;112;114;111;116;111;99;95;103;101;110;95;115;119;97;103;103;101;114;46;111;112;116;105;111;110;115;46;111;112;101;110;97;112;105;118;50;95;111;112;101;114;97;116;105;111;110;41;32;61;32;123;10;9;9;9;100;101;112;114;101;99;97;116;101;100;58;32;116;114;117;101;32;47;47;32;70;111;114;32;116;101;115;116;105;110;103;32;112;117;114;112;111;115;101;115;46;10;9;9;9;101;120;116;101;114;110;97;108;95;100;111;99;115;58;32;123;10;9;9;9;9;117;114;108;58;32;34;104;116;116;112;115;58;47;47;103;105;116;104;117;98;46;99;111;109;47;103;114;112;99;45;101;99;111;115;121;115;116;101;109;47;103;114;112;99;45;103;97;116;101;119;97;121;34;59;10;9;9;9;9;100;101;115;99;114;105;112;116;105;111;110;58;32;34;70;105;110;100;32;111;117;116;32;109;111;114;101;32;97;98;111;117;116;32;71;101;116;81;117;101;114;121;34;59;10;9;9;9;125;10;9;9;9;115;101;99;117;114;105;116;121;58;32;123;10;9;9;9;125;10;9;9;125;59;10;9;125;10;9;114;112;99;32;71;101;116;82;101;112;101;97;116;101;100;81;117;101;114;121;40;65;66;105;116;79;102;69;118;101;114;121;116;104;105;110;103;82;101;112;101;97;116;101;100;41;32;114;101;116;117;114;110;115;32;40;65;66;105;116;79;102;69;118;101;114;121;116;104;105;110;103;82;101;112;101;97;116;101;100;41;32;123;10;9;9;111;112;116;105;111;110;32;40;103;111;111;103;108;101;46;97;112;105;46;104;116;116;112;41;32;61;32;123;10;9;9;9;103;101;116;58;32;34;47;118;49;47;101;120;97;109;112;108;101;47;97;95;98;105;116;95;111;102;95;101;118;101;114;121;116;104;105;110;103;95;114;101;112;101;97;116;101;100;47;123;112;97;116;104;95;114;101;112;101;97;116;101;100;95;102;108;111;97;116;95;118;97;108;117;101;125;47;123;112;97;116;104;95;114;101;112;101;97;116;101;100;95;100;111;117;98;108;101;95;118;97;108;117;101;125;47;123;112;97;116;104;95;114;101;112;101;97;116;101;100;95;105;110;116;54;52;95;118;97;108;117;101;125;47;123;112;97;116;104;95;114;101;112;101;97;116;101;100;95;117;105;110;116;54;52;95;118;97;108;117;101;125;47;123;112;97;116;104;95;114;101;112;101;97;116;101;100;95;105;110;116;51;50;95;118;97;108;117;101;125;47;123;112;97;116;104;95;114;101;112;101;97;116;101;100;95;102;105;120;101;100;54;52;95;118;97;108;117;101;125;47;123;112;97;116;104;95;114;101;112;101;97;116;101;100;95;102;105;120;101;100;51;50;95;118;97;108;117;101;125;47;123;112;97;116;104;95;114;101;112;101;97;116;101;100;95;98;111;111;108;95;118;97;108;117;101;125;47;123;112;97;116;104;95;114;101;112;101;97;116;101;100;95;115;116;114;105;110;103;95;118;97;108;117;101;125;47;123;112;97;116;104;95;114;101;112;101;97;116;101;100;95;98;121;116;101;115;95;118;97;108;117;101;125;47;123;112;97;116;104;95;114;101;112;101;97;116;101;100;95;117;105;110;116;51;50;95;118;97;108;117;101;125;47;123;112;97;116;104;95;114;101;112;101;97;116;101;100;95;101;110;117;109;95;118;97;108;117;101;125;47;123;112;97;116;104;95;114;101;112;101;97;116;101;100;95;115;102;105;120;101;100;51;50;95;118;97;108;117;101;125;47;123;112;97;116;104;95;114;101;112;101;97;116;101;100;95;115;102;105;120;101;100;54;52;95;118;97;108;117;101;125;47;123;112;97;116;104;95;114;101;112;101;97;116;101;100;95;115;105;110;116;51;50;95;118;97;108;117;101;125;47;123;112;97;116;104;95;114;101;112;101;97;116;101;100;95;115;105;110;116;54;52;95;118;97;108;117;101;125;34;10;9;9;125;59;10;9;125;10;9;47;47;32;69;99;104;111;32;97;108;108;111;119;115;32;112;111;115;116;105;110;103;32;97;32;83;116;114;105;110;103;77;101;115;115;97;103;101;32;118;97;108;117;101;46;10;9;47;47;10;9;47;47;32;73;116;32;97;108;115;111;32;101;120;112;111;115;101;115;32;109;117;108;116;105;112;108;101;32;98;105;110;100;105;110;103;115;46;10;9;47;47;10;9;47;47;32;84;104;105;115;32;109;97;107;101;115;32;105;116;32;117;115;101;102;117;108;32;119;104;101;110;32;118;97;108;105;100;97;116;105;110;103;32;116;104;97;116;32;116;104;101;32;79;112;101;110;65;80;73;32;118;50;32;65;80;73;10;9;47;47;32;100;101;115;99;114;105;112;116;105;111;110;32;101;120;112;111;115;101;115;32;100;111;99;117;109;101;110;116;97;116;105;111;110;32;99;111;114;114;101;99;116;108;121;32;111;110;32;97;108;108;32;112;97;116;104;115;10;9;47;47;32;100;101;102;105;110;101;100;32;97;115;32;97;100;100;105;116;105;111;110;97;108;95;98;105;110;100;105;110;103;115;32;105;110;32;116;104;101;32;112;114;111;116;111;46;10;9;114;112;99;32;69;99;104;111;40;103;114;112;99;46;103;97;116;101;119;97;121;46;101;120;97;109;112;108;101;115;46;105;110;116;101;114;110;97;108;46;115;117;98;46;83;116;114;105;110;103;77;101;115;115;97;103;101;41;32;114;101;116;117;114;110;115;32;40;103;114;112;99;46;103;97;116;101;119;97;121;46;101;120;97;109;112;108;101;115;46;105;110;116;101;114;110;97;108;46;115;117;98;46;83;116;114;105;110;103;77;101;115;115;97;103;101;41;32;123;10;9;9;111;112;116;105;111;110;32;40;103;111;111;103;108;101;46;97;112;105;46;104;116;116;112;41;32;61;32;123;10;9;9;9;103;101;116;58;32;34;47;118;49;47;101;120;97;109;112;108;101;47;97;95;98;105;116;95;111;102;95;101;118;101;114;121;116;104;105;110;103;47;101;99;104;111;47;123;118;97;108;117;101;125;34;10;9;9;9;97;100;100;105;116;105;111;110;97;108;95;98;105;110;100;105;110;103;115;32;123;10;9;9;9;9;112;111;115;116;58;32;34;47;118;50;47;101;120;97;109;112;108;101;47;101;99;104;111;34;10;9;9;9;9;98;111;100;121;58;32;34;118;97;108;117;101;34;10;9;9;9;125;10;9;9;9;97;100;100;105;116;105;111;110;97;108;95;98;105;110;100;105;110;103;115;32;123;10;9;9;9;9;103;101;116;58;32;34;47;118;50;47;101;120;97;109;112;108;101;47;101;99;104;111;34;10;9;9;9;125;10;9;9;125;59;10;9;9;111;112;116;105;111;110;32;40;103;114;112;99;46;103;97;116;101;119;97;121;46;112;114;111;116;111;99;95;103;101;110;95;115;119;97;103;103;101;114;46;111;112;116;105;111;110;115;46;111;112;101;110;97;112;105;118;50;95;111;112;101;114;97;116;105;111;110;41;32;61;32;123;10;9;9;9;100;101;115;99;114;105;112;116;105;111;110;58;32;34;68;101;115;99;114;105;112;116;105;111;110;32;69;99;104;111;34;59;10;9;9;9;115;117;109;109;97;114;121;58;32;34;83;117;109;109;97;114;121;58;32;69;99;104;111;32;114;112;99;34;59;10;9;9;9;116;97;103;115;58;32;34;101;99;104;111;32;114;112;99;34;59;10;9;9;9;101;120;116;101;114;110;97;108;95;100;111;99;115;58;32;123;10;9;9;9;9;117;114;108;58;32;34;104;116;116;112;115;58;47;47;103;105;116;104;117;98;46;99;111;109;47;103;114;112;99;45;101;99;111;115;121;115;116;101;109;47;103;114;112;99;45;103;97;116;101;119;97;121;34;59;10;9;9;9;9;100;101;115;99;114;105;112;116;105;111;110;58;32;34;70;105;110;100;32;111;117;116;32;109;111;114;101;32;69;99;104;111;34;59;10;9;9;9;125;10;9;9;9;114;101;115;112;111;110;115;101;115;58;32;123;10;9;9;9;9;107;101;121;58;32;34;50;48;48;34;10;9;9;9;9;118;97;108;117;101;58;32;123;10;9;9;9;9;9;101;120;97;109;112;108;101;115;58;32;123;10;9;9;9;9;9;9;107;101;121;58;32;34;97;112;112;108;105;99;97;116;105;111;110;47;106;115;111;110;34;10;9;9;9;9;9;9;118;97;108;117;101;58;32;39;123;34;118;97;108;117;101;34;58;32;34;116;104;101;32;105;110;112;117;116;32;118;97;108;117;101;34;125;39;10;9;9;9;9;9;125;10;9;9;9;9;125;10;9;9;9;125;10;9;9;9;114;101;115;112;111;110;115;101;115;58;32;123;10;9;9;9;9;107;101;121;58;32;34;53;48;51;34;59;10;9;9;9;9;118;97;108;117;101;58;32;123;10;9;9;9;9;9;100;101;115;99;114;105;112;116;105;111;110;58;32;34;82;101;116;117;114;110;101;100;32;119;104;101;110;32;116;104;101;32;114;101;115;111;117;114;99;101;32;105;115;32;116;101;109;112;111;114;97;114;105;108;121;32;117;110;97;118;97;105;108;97;98;108;101;46;34;59;10;9;9;9;9;9;101;120;116;101;110;115;105;111;110;115;58;32;123;10;9;9;9;9;9;9;107;101;121;58;32;34;120;45;110;117;109;98;101;114;34;59;10;9;9;9;9;9;9;118;97;108;117;101;32;123;10;9;9;9;9;9;9;9;110;117;109;98;101;114;95;118;97;108;117;101;58;32;49;48;48;59;10;9;9;9;9;9;9;125;10;9;9;9;9;9;125;10;9;9;9;9;125;10;9;9;9;125;10;9;9;9;114;101;115;112;111;110;115;101;115;58;32;123;10;9;9;9;9;47;47;32;79;118;101;114;119;114;105;116;101;115;32;103;108;111;98;97;108;32;100;101;102;105;110;105;116;105;111;110;46;10;9;9;9;9;107;101;121;58;32;34;52;48;52;34;59;10;9;9;9;9;118;97;108;117;101;58;32;123;10;9;9;9;9;9;100;101;115;99;114;105;112;116;105;111;110;58;32;34;82;101;116;117;114;110;101;100;32;119;104;101;110;32;116;104;101;32;114;101;115;111;117;114;99;101;32;100;111;101;115;32;110;111;116;32;101;120;105;115;116;46;34;59;10;9;9;9;9;9;115;99;104;101;109;97;58;32;123;10;9;9;9;9;9;9;106;115;111;110;95;115;99;104;101;109;97;58;32;123;10;9;9;9;9;9;9;9;116;121;112;101;58;32;73;78;84;69;71;69;82;59;10;9;9;9;9;9;9;125;10;9;9;9;9;9;125;10;9;9;9;9;125;10;9;9;9;125;10;9;9;125;59;10;9;125;10;9;114;112;99;32;68;101;101;112;80;97;116;104;69;99;104;111;40;65;66;105;116;79;102;69;118;101;114;121;116;104;105;110;103;41;32;114;101;116;117;114;110;115;32;40;65;66;105;116;79;102;69;118;101;114;121;116;104;105;110;103;41;32;123;10;9;9;111;112;116;105;111;110;32;40;103;111;111;103;108;101;46;97;112;105;46;104;116;116;112;41;32;61;32;123;10;9;9;9;112;111;115;116;58;32;34;47;118;49;47;101;120;97;109;112;108;101;47;97;95;98;105;116;95;111;102;95;101;118;101;114;121;116;104;105;110;103;47;123;115;105;110;103;108;101;95;110;101;115;116;101;100;46;110;97;109;101;125;34;10;9;9;9;98;111;100;121;58;32;34;42;34;10;9;9;125;59;10;9;125;10;9;114;112;99;32;78;111;66;105;110;100;105;110;103;115;40;103;111;111;103;108;101;46;112;114;111;116;111;98;117;102;46;68;117;114;97;116;105;111;110;41;32;114;101;116;117;114;110;115;32;40;103;111;111;103;108;101;46;112;114;111;116;111;98;117;102;46;69;109;112;116;121;41;32;123;125;10;9;114;112;99;32;84;105;109;101;111;117;116;40;103;111;111;103;108;101;46;112;114;111;116;111;98;117;102;46;69;109;112;116;121;41;32;114;101;116;117;114;110;115;32;40;103;111;111;103;108;101;46;112;114;111;116;111;98;117;102;46;69;109;112;116;121;41;32;123;10;9;9;111;112;116;105;111;110;32;40;103;111;111;103;108;101;46;97;112;105;46;104;116;116;112;41;32;61;32;123;10;9;9;9;103;101;116;58;32;34;47;118;50;47;101;120;97;109;112;108;101;47;116;105;109;101;111;117;116;34;44;10;9;9;125;59;10;9;125;10;9;114;112;99;32;69;114;114;111;114;87;105;116;104;68;101;116;97;105;108;115;40;103;111;111;103;108;101;46;112;114;111;116;111;98;117;102;46;69;109;112;116;121;41;32;114;101;116;117;114;110;115;32;40;103;111;111;103;108;101;46;112;114;111;116;111;98;117;102;46;69;109;112;116;121;41;32;123;10;9;9;111;112;116;105;111;110;32;40;103;111;111;103;108;101;46;97;112;105;46;104;116;116;112;41;32;61;32;123;10;9;9;9;103;101;116;58;32;34;47;118;50;47;101;120;97;109;112;108;101;47;101;114;114;111;114;119;105;116;104;100;101;116;97;105;108;115;34;44;10;9;9;125;59;10;9;125;10;9;114;112;99;32;71;101;116;77;101;115;115;97;103;101;87;105;116;104;66;111;100;121;40;77;101;115;115;97;103;101;87;105;116;104;66;111;100;121;41;32;114;101;116;117;114;110;115;32;40;103;111;111;103;108;101;46;112;114;111;116;111;98;117;102;46;69;109;112;116;121;41;32;123;10;9;9;111;112;116;105;111;110;32;40;103;111;111;103;108;101;46;97;112;105;46;104;116;116;112;41;32;61;32;123;10;9;9;9;112;111;115;116;58;32;34;47;118;50;47;101;120;97;109;112;108;101;47;119;105;116;104;98;111;100;121;47;123;105;100;125;34;44;10;9;9;9;98;111;100;121;58;32;34;100;97;116;97;34;10;9;9;125;59;10;9;125;10;9;114;112;99;32;80;111;115;116;87;105;116;104;69;109;112;116;121;66;111;100;121;40;66;111;100;121;41;32;114;101;116;117;114;110;115;32;40;103;111;111;103;108;101;46;112;114;111;116;111;98;117;102;46;69;109;112;116;121;41;32;123;10;9;9;111;112;116;105;111;110;32;40;103;111;111;103;108;101;46;97;112;105;46;104;116;116;112;41;32;61;32;123;10;9;9;9;112;111;115;116;58;32;34;47;118;50;47;101;120;97;109;112;108;101;47;112;111;115;116;119;105;116;104;101;109;112;116;121;98;111;100;121;47;123;110;97;109;101;125;34;44;10;9;9;9;98;111;100;121;58;32;34;42;34;10;9;9;125;59;10;9;125;10;9;114;112;99;32;67;104;101;99;107;71;101;116;81;117;101;114;121;80;97;114;97;109;115;40;65;66;105;116;79;102;69;118;101;114;121;116;104;105;110;103;41;32;114;101;116;117;114;110;115;32;40;65;66;105;116;79;102;69;118;101;114;121;116;104;105;110;103;41;32;123;10;9;9;111;112;116;105;111;110;32;40;103;111;111;103;108;101;46;97;112;105;46;104;116;116;112;41;32;61;32;123;10;9;9;9;103;101;116;58;32;34;47;118;49;47;101;120;97;109;112;108;101;47;97;95;98;105;116;95;111;102;95;101;118;101;114;121;116;104;105;110;103;47;112;97;114;97;109;115;47;103;101;116;47;123;115;105;110;103;108;101;95;110;101;115;116;101;100;46;110;97;109;101;125;34;10;9;9;125;59;10;9;125;10;9;114;112;99;32;67;104;101;99;107;78;101;115;116;101;100;69;110;117;109;71;101;116;81;117;101;114;121;80;97;114;97;109;115;40;65;66;105;116;79;102;69;118;101;114;121;116;104;105;110;103;41;32;114;101;116;117;114;110;115;32;40;65;66;105;116;79;102;69;118;101;114;121;116;104;105;110;103;41;32;123;10;9;9;111;112;116;105;111;110;32;40;103;111;111;103;108;101;46;97;112;105;46;104;116;116;112;41;32;61;32;123;10;9;9;9;103;101;116;58;32;34;47;118;49;47;101;120;97;109;112;108;101;47;97;95;98;105;116;95;111;102;95;101;118;101;114;121;116;104;105;110;103;47;112;97;114;97;109;115;47;103;101;116;47;110;101;115;116;101;100;95;101;110;117;109;47;123;115;105;110;103;108;101;95;110;101;115;116;101;100;46;111;107;125;34;10;9;9;125;59;10;9;125;10;9;114;112;99;32;67;104;101;99;107;80;111;115;116;81;117;101;114;121;80;97;114;97;109;115;40;65;66;105;116;79;102;69;118;101;114;121;116;104;105;110;103;41;32;114;101;116;117;114;110;115;32;40;65;66;105;116;79;102;69;118;101;114;121;116;104;105;110;103;41;32;123;10;9;9;111;112;116;105;111;110;32;40;103;111;111;103;108;101;46;97;112;105;46;104;116;116;112;41;32;61;32;123;10;9;9;9;112;111;115;116;58;32;34;47;118;49;47;101;120;97;109;112;108;101;47;97;95;98;105;116;95;111;102;95;101;118;101;114;121;116;104;105;110;103;47;112;97;114;97;109;115;47;112;111;115;116;47;123;115;116;114;105;110;103;95;118;97;108;117;101;125;34;10;9;9;9;98;111;100;121;58;32;34;115;105;110;103;108;101;95;110;101;115;116;101;100;34;10;9;9;125;59;10;9;125;10;9;114;112;99;32;79;118;101;114;119;114;105;116;101;82;101;115;112;111;110;115;101;67;111;110;116;101;110;116;84;121;112;101;40;103;111;111;103;108;101;46;112;114;111;116;111;98;117;102;46;69;109;112;116;121;41;32;114;101;116;117;114;110;115;32;40;103;111;111;103;108;101;46;112;114;111;116;111;98;117;102;46;83;116;114;105;110;103;86;97;108;117;101;41;32;123;10;9;9;111;112;116;105;111;110;32;40;103;111;111;103;108;101;46;97;112;105;46;104;116;116;112;41;32;61;32;123;10;9;9;9;103;101;116;58;32;34;47;118;50;47;101;120;97;109;112;108;101;47;111;118;101;114;119;114;105;116;101;114;101;115;112;111;110;115;101;99;111;110;116;101;110;116;116;121;112;101;34;10;9;9;125;59;10;9;9;111;112;116;105;111;110;32;40;103;114;112;99;46;103;97;116;101;119;97;121;46;112;114;111;116;111;99;95;103;101;110;95;115;119;97;103;103;101;114;46;111;112;116;105;111;110;115;46;111;112;101;110;97;112;105;118;50;95;111;112;101;114;97;116;105;111;110;41;32;61;32;123;10;9;9;9;112;114;111;100;117;99;101;115;58;32;34;97;112;112;108;105;99;97;116;105;111;110;47;116;101;120;116;34;10;9;9;125;59;10;9;125;10;125;10;10;47;47;32;99;97;109;101;108;67;97;115;101;32;97;110;100;32;108;111;119;101;114;99;97;115;101;32;115;101;114;118;105;99;101;32;110;97;109;101;115;32;97;114;101;32;118;97;108;105;100;32;98;117;116;32;110;111;116;32;114;101;99;111;109;109;101;110;100;101;100;32;40;117;115;101;32;84;105;116;108;101;67;97;115;101;32;105;110;115;116;101;97;100;41;10;115;101;114;118;105;99;101;32;99;97;109;101;108;67;97;115;101;83;101;114;118;105;99;101;78;97;109;101;32;123;10;9;114;112;99;32;69;109;112;116;121;40;103;111;111;103;108;101;46;112;114;111;116;111;98;117;102;46;69;109;112;116;121;41;32;114;101;116;117;114;110;115;32;40;103;111;111;103;108;101;46;112;114;111;116;111;98;117;102;46;69;109;112;116;121;41;32;123;10;9;9;111;112;116;105;111;110;32;40;103;111;111;103;108;101;46;97;112;105;46;104;116;116;112;41;32;61;32;123;10;9;9;9;103;101;116;58;32;34;47;118;50;47;101;120;97;109;112;108;101;47;101;109;112;116;121;34;44;10;9;9;125;59;10;9;125;10;125;10;115;101;114;118;105;99;101;32;65;110;111;116;104;101;114;83;101;114;118;105;99;101;87;105;116;104;78;111;66;105;110;100;105;110;103;115;32;123;10;9;114;112;99;32;78;111;66;105;110;100;105;110;103;115;40;103;111;111;103;108;101;46;112;114;111;116;111;98;117;102;46;69;109;112;116;121;41;32;114;101;116;117;114;110;115;32;40;103;111;111;103;108;101;46;112;114;111;116;111;98;117;102;46;69;109;112;116;121;41;32;123;125;10;125;10]%N) = true. Proof. vm_compute. reflexivity. Qed.
(* /repo/_testdata/simple.proto *)
Example d_6 : is_ok (ParseBytes [] [115;121;110;116;97;120;32;61;32;34;112;114;111;116;111;51;34;59;10;47;47;32;65;110;32;101;120;97;109;112;108;101;32;111;102;32;116;104;101;32;111;102;102;105;99;105;97;108;32;114;101;102;101;114;101;110;99;101;10;47;47;32;83;101;101;32;104;116;116;112;115;58;47;47;100;101;118;101;108;111;112;101;114;115;46;103;111;111;103;108;101;46;99;111;109;47;112;114;111;116;111;99;111;108;45;98;117;102;102;101;114;115;47;100;111;99;115;47;114;101;102;101;114;101;110;99;101;47;112;114;111;116;111;51;45;115;112;101;99;35;112;114;111;116;111;95;102;105;108;101;10;112;97;99;107;97;103;101;32;101;120;97;109;112;108;101;112;98;59;10;105;109;112;111;114;116;32;112;117;98;108;105;99;32;34;111;116;104;101;114;46;112;114;111;116;111;34;59;10;111;112;116;105;111;110;32;106;97;118;97;95;112;97;99;107;97;103;101;32;61;32;34;99;111;109;46;101;120;97;109;112;108;101;46;102;111;111;34;59;10;101;110;117;109;32;69;110;117;109;65;108;108;111;119;105;110;103;65;108;105;97;115;32;123;10;32;32;32;32;111;112;116;105;111;110;32;97;108;108;111;119;95;97;108;105;97;115;32;61;32;116;114;117;101;59;10;32;32;32;32;85;78;75;78;79;87;78;32;61;32;48;59;10;32;32;32;32;83;84;65;82;84;69;68;32;61;32;49;59;10;32;32;32;32;82;85;78;78;73;78;71;32;61;32;50;32;91;40;99;117;115;116;111;109;95;111;112;116;105;111;110;41;32;61;32;34;116;104;105;115;32;105;115;32;97;32;34;10;32;32;32;32;32;32;32;32;32;32;32;32;32;32;32;32;32;32;32;32;32;32;32;32;32;32;32;32;32;32;32;32;32;32;32;34;115;116;114;105;110;103;32;111;110;32;116;119;111;32;108;105;110;101;115;34;10;32;32;32;32;32;32;32;32;32;32;32;32;32;32;32;32;93;59;10;125;10;109;101;115;115;97;103;101;32;111;117;116;101;114;32;123;10;32;32;32;32;111;112;116;105;111;110;32;40;109;121;95;111;112;116;105;111;110;41;46;97;32;61;32;116;114;117;101;59;10;32;32;32;32;109;101;115;115;97;103;101;32;105;110;110;101;114;32;123;32;32;32;47;47;32;76;101;118;101;108;32;50;10;32;32;32;32;32;32;105;110;116;54;52;32;105;118;97;108;32;61;32;49;59;10;32;32;32;32;125;10;32;32;32;32;114;101;112;101;97;116;101;100;32;105;110;110;101;114;32;105;110;110;101;114;95;109;101;115;115;97;103;101;32;61;32;50;59;10;32;32;32;32;69;110;117;109;65;108;108;111;119;105;110;103;65;108;105;97;115;32;101;110;117;109;95;102;105;101;108;100;32;61;51;59;10;32;32;32;32;109;97;112;60;105;110;116;51;50;44;32;115;116;114;105;110;103;62;32;109;121;95;109;97;112;32;61;32;52;59;10;125;10;115;101;114;118;105;99;101;32;72;101;108;108;111;83;101;114;118;105;99;101;32;123;10;32;32;114;112;99;32;83;97;121;72;101;108;108;111;32;40;72;101;108;108;111;82;101;113;117;101;115;116;41;32;114;101;116;117;114;110;115;32;40;72;101;108;108;111;82;101;115;112;111;110;115;101;41;32;123;125;59;10;125]%N) = true. Proof. vm_compute. reflexivity. Qed.
(* /repo/_testdata/simpleWithComments.proto *)
Example d_7 : is_ok (ParseBytes [] [47;47;32;65;110;32;101;120;97;109;112;108;101;32;111;102;32;116;104;101;32;111;102;102;105;99;105;97;108;32;114;101;102;101;114;101;110;99;101;32;119;105;116;104;32;97;100;100;105;116;105;111;110;97;108;32;99;111;109;109;101;110;116;115;46;10;47;47;32;83;101;101;32;104;116;116;112;115;58;47;47;100;101;118;101;108;111;112;101;114;115;46;103;111;111;103;108;101;46;99;111;109;47;112;114;111;116;111;99;111;108;45;98;117;102;102;101;114;115;47;100;111;99;115;47;114;101;102;101;114;101;110;99;101;47;112;114;111;116;111;51;45;115;112;101;99;35;112;114;111;116;111;95;102;105;108;101;10;115;121;110;116;97;120;32;61;32;34;112;114;111;116;111;51;34;59;10;47;47;32;73;109;112;111;114;116;115;32;111;116;104;101;114;46;112;114;111;116;111;10;105;109;112;111;114;116;32;112;117;98;108;105;99;32;34;111;116;104;101;114;46;112;114;111;116;111;34;59;10;47;47;32;106;97;118;97;95;112;97;99;107;97;103;101;32;111;112;116;105;111;110;10;111;112;116;105;111;110;32;106;97;118;97;95;112;97;99;107;97;103;101;32;61;32;34;99;111;109;46;101;120;97;109;112;108;101;46;102;111;111;34;59;10;47;47;32;69;110;117;109;65;108;108;111;119;105;110;103;65;108;105;97;115;32;105;115;32;97;110;32;97;108;105;97;115;10;101;110;117;109;32;69;110;117;109;65;108;108;111;119;105;110;103;65;108;105;97;115;32;123;10;32;32;32;32;47;47;32;97;108;108;111;119;95;97;108;105;97;115;32;111;112;116;105;111;110;32;105;115;32;116;114;117;101;10;32;32;32;32;111;112;116;105;111;110;32;97;108;108;111;119;95;97;108;105;97;115;32;61;32;116;114;117;101;59;10;32;32;32;32;85;78;75;78;79;87;78;32;61;32;48;59;10;32;32;32;32;83;84;65;82;84;69;68;32;61;32;49;59;10;32;32;32;32;82;85;78;78;73;78;71;32;61;32;50;32;91;40;99;117;115;116;111;109;95;111;112;116;105;111;110;41;32;61;32;34;104;101;108;108;111;32;119;111;114;108;100;34;93;59;10;125;10;47;47;32;111;117;116;101;114;32;109;101;115;115;97;103;101;10;109;101;115;115;97;103;101;32;111;117;116;101;114;32;123;10;32;32;32;32;111;112;116;105;111;110;32;40;109;121;95;111;112;116;105;111;110;41;46;97;32;61;32;116;114;117;101;59;10;32;32;32;32;47;47;32;105;110;110;101;114;32;109;101;115;115;97;103;101;10;32;32;32;32;109;101;115;115;97;103;101;32;105;110;110;101;114;32;123;10;32;32;32;32;32;32;105;110;116;54;52;32;105;118;97;108;32;61;32;49;59;10;32;32;32;32;125;10;32;32;32;32;114;101;112;101;97;116;101;100;32;105;110;110;101;114;32;105;110;110;101;114;95;109;101;115;115;97;103;101;32;61;32;50;59;10;32;32;32;32;69;110;117;109;65;108;108;111;119;105;110;103;65;108;105;97;115;32;101;110;117;109;95;102;105;101;108;100;32;61;51;59;10;32;32;32;32;109;97;112;60;105;110;116;51;50;44;32;115;116;114;105;110;103;62;32;109;121;95;109;97;112;32;61;32;52;59;10;125;10]%N) = true. Proof. vm_compute. reflexivity. Qed.
(* /repo/_testdata/simplev2.proto *)
Example d_8 : is_ok (ParseBytes [] [47;47;32;65;110;32;101;120;97;109;112;108;101;32;111;102;32;116;104;101;32;111;102;102;105;99;105;97;108;32;114;101;102;101;114;101;110;99;101;10;47;47;32;83;101;101;32;104;116;116;112;115;58;47;47;100;101;118;101;108;111;112;101;114;115;46;103;111;111;103;108;101;46;99;111;109;47;112;114;111;116;111;99;111;108;45;98;117;102;102;101;114;115;47;100;111;99;115;47;114;101;102;101;114;101;110;99;101;47;112;114;111;116;111;50;45;115;112;101;99;35;112;114;111;116;111;95;102;105;108;101;10;115;121;110;116;97;120;32;61;32;34;112;114;111;116;111;50;34;59;10;105;109;112;111;114;116;32;112;117;98;108;105;99;32;34;111;116;104;101;114;46;112;114;111;116;111;34;59;10;111;112;116;105;111;110;32;106;97;118;97;95;112;97;99;107;97;103;101;32;61;32;34;99;111;109;46;101;120;97;109;112;108;101;46;102;111;111;34;59;10;101;110;117;109;32;69;110;117;109;65;108;108;111;119;105;110;103;65;108;105;97;115;32;123;10;32;32;32;32;111;112;116;105;111;110;32;97;108;108;111;119;95;97;108;105;97;115;32;61;32;116;114;117;101;59;10;32;32;32;32;85;78;75;78;79;87;78;32;61;32;48;59;10;32;32;32;32;83;84;65;82;84;69;68;32;61;32;49;59;10;32;32;32;32;82;85;78;78;73;78;71;32;61;32;50;32;91;40;99;117;115;116;111;109;95;111;112;116;105;111;110;41;32;61;32;34;104;101;108;108;111;32;119;111;114;108;100;34;93;59;10;125;10;109;101;115;115;97;103;101;32;111;117;116;101;114;32;123;10;32;32;32;32;111;112;116;105;111;110;32;40;109;121;95;111;112;116;105;111;110;41;46;97;32;61;32;116;114;117;101;59;10;32;32;32;32;109;101;115;115;97;103;101;32;105;110;110;101;114;32;123;32;32;32;47;47;32;76;101;118;101;108;32;50;10;32;32;32;32;32;32;32;32;32;32;32;32;32;32;32;32;32;32;32;32;32;32;114;101;113;117;105;114;101;100;32;105;110;116;54;52;32;105;118;97;108;32;61;32;49;59;10;32;32;32;32;125;10;32;32;32;32;114;101;112;101;97;116;101;100;32;105;110;110;101;114;32;105;110;110;101;114;95;109;101;115;115;97;103;101;32;61;32;50;59;10;32;32;32;32;111;112;116;105;111;110;97;108;32;69;110;117;109;65;108;108;111;119;105;110;103;65;108;105;97;115;32;101;110;117;109;95;102;105;101;108;100;32;61;32;51;59;10;32;32;32;32;109;97;112;60;105;110;116;51;50;44;32;115;116;114;105;110;103;62;32;109;121;95;109;97;112;32;61;32;52;59;10;32;32;32;32;101;120;116;101;110;115;105;111;110;115;32;50;48;32;116;111;32;51;48;59;10;125;10;109;101;115;115;97;103;101;32;102;111;111;32;123;10;32;32;32;32;111;112;116;105;111;110;97;108;32;103;114;111;117;112;32;71;114;111;117;112;77;101;115;115;97;103;101;32;61;32;49;32;123;10;32;32;32;32;32;32;32;32;111;112;116;105;111;110;97;108;32;105;110;116;54;52;32;97;32;61;32;49;59;10;32;32;32;32;125;10;125;10]%N) = true. Proof. vm_compute. reflexivity. Qed.
