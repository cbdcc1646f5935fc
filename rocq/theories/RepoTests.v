(** The crate's own tests, run on the model: each example states what the test at the place
    cited asserts.  They are tests of the model, not properties.

    Left out: tests of the derived traits and of plain accessors, and of the text of formula errors
    (reader.rs:324).  Those tests of message_extractor.rs that replace the decoder by a mock are in
    RepoTestsDecoder.v; the two whose answers can be written as a file are also here. *)
From Coq Require Import String Arith NArith ZArith Bool List.
From Verif Require Import ModelBase ModelUtf8 ModelLine ModelFormula ModelData ModelSource ModelReader ModelMachine.
Import ListNotations.
Local Open Scope N_scope.

(** A Coq string literal is UTF-8: its bytes and its characters. *)
Definition bytes (s : string) : list byte := lit s.
Definition u8 (s : string) : str := match utf8_decode (bytes s) with Some t => t | None => [] end.
Definition nl : string := String (Ascii.ascii_of_N 10) EmptyString.
Definition cr : string := String (Ascii.ascii_of_N 13) EmptyString.
Definition tab : string := String (Ascii.ascii_of_N 9) EmptyString.
(** The pieces one after the other; the lines with a line feed between them. *)
Definition cat (l : list string) : string := String.concat EmptyString l.
Definition text (l : list string) : string := String.concat nl l.
Definition stream (s : string) : list rd_event := [RdData (bytes s)].
Definition iter (s : string) : line_iter := li_new (stream s).
Definition all_lines (s : string) : lines := responses (iter s).
(** The first k results of the line iterator. *)
Fixpoint calls (k : nat) (it : line_iter) : list (option item) :=
  match k with O => [] | S k' => let (r, it') := li_next it in r :: calls k' it' end.

(** [LanguageRange::new] accepts the tags used in the tests. *)
Definition lib : lang_lib :=
  LangLib [] (fun s => if str_eqb s (lit "fr") || str_eqb s (lit "en") then Some s else None) (fun _ => None).
Definition pf : platform := Platform 64 true.
Definition debug (e : error) : str := error_format (fun _ => lit "<io error>") e.
(** An error with this text *)
Definition fails {A} (o : outcome A) (s : string) : Prop :=
  match o with Err e => debug e = u8 s | _ => False end.
Definition form (forms : option plural_forms) (n : N) : option (option N) :=
  match forms with Some f => forms_get_value pf f n | None => None end.
Definition plural_text (m : message) (n : N) : option (option str) := msg_get_plural_text pf m n.
Definition some_text (s : string) : option (option str) := Some (Some (u8 s)).

(** * unescape.rs *)
(** unescape.rs:55-68 *)
Example replace_char_test :
  map (fun c => replace_char c) (lit "ABCDE") = repeat (Some None) 5
  /\ replace_char 34 = Some (Some (lit """")) /\ replace_char 92 = Some (Some (lit "\"))
  /\ replace_char 110 = Some (Some [10]) /\ replace_char 114 = Some (Some [13]) /\ replace_char 116 = Some (Some [9]).
Proof. vm_compute. repeat split. Qed.
(** unescape.rs:71-80 *)
Example unescape_test :
  unescape (lit "Hello\nworld\r\n\t!") = lit (cat ["Hello"; nl; "world"; cr; nl; tab; "!"]%string)
  /\ unescape (lit "Sub\""\tstring") = lit (cat ["Sub"""; tab; "string"]%string)
  /\ unescape (lit "My\\Path: \tValue") = lit (cat ["My\Path: "; tab; "Value"]%string).
Proof. vm_compute. repeat split. Qed.

(** * parser.rs *)
(** parser.rs:106-123 *)
Example parse_map_test :
  parse_map (lit "key=value") = None
  /\ debug (EUnexpected 0 (bad_list_msg (lit "key=value"))) = u8 "Unexpected error: Bad value list definition: `key=value`"
  /\ parse_map (lit (cat ["     xyz=abc "; tab; " ; a=b;c=  d;   e  "; tab; " = f;"]%string))
     = Some [(lit "xyz", lit "abc"); (lit "a", lit "b"); (lit "c", lit "d"); (lit "e", lit "f")].
Proof. vm_compute. repeat split. Qed.
(** parser.rs:126-207 *)
Example parse_line_test :
  map (fun s => parse_line (lit s) 123) ["---"; """--"; "msgid ""--"; "msgxx ""--"""; "-# Something"]%string = repeat None 5
  /\ map (fun s => parse_line (lit s) 123) [""; "      "; cat ["   "; tab; cr; nl; "   "]]%string = repeat (Some PBlank) 3
  /\ parse_line (lit "msgid ""hello\n\tworld""") 123 = Some (PMessage 123 [] (lit "msgid") (lit (cat ["hello"; nl; tab; "world"]%string)))
  /\ parse_line (lit "#| msgstr[3] ""hello\n\tworld""") 123
     = Some (PMessage 123 (lit "|") (lit "|msgstr[3]") (lit (cat ["hello"; nl; tab; "world"]%string)))
  /\ parse_line (lit """hello\n\tworld""") 123 = Some (PCont 123 [] (lit (cat ["hello"; nl; tab; "world"]%string)))
  /\ parse_line (lit "#| ""path: xx\\yy""") 123 = Some (PCont 123 (lit "|") (lit "path: xx\yy"))
  /\ parse_line (lit "#, My comment") 123 = Some (PComment 123 44 (lit "My comment"))
  /\ parse_line (lit "# Another comment") 123 = Some (PComment 123 32 (lit "Another comment"))
  /\ parse_line (lit "#$ Special comment") 123 = Some (PComment 123 36 (lit "Special comment")).
Proof. vm_compute. repeat split. Qed.
(** line.rs:70-75 *)
Example line_number_test :
  map po_line_no [PBlank; PComment 1 65 (lit "S0"); PMessage 2 (lit "F1") (lit "T") (lit "S1"); PCont 3 (lit "F2") (lit "S2")]
  = [0; 1; 2; 3].
Proof. reflexivity. Qed.

(** * line_iter.rs *)
(** line_iter.rs:64-81 *)
Example iter_empty_test : calls 1 (iter "") = [None].
Proof. vm_compute. reflexivity. Qed.
Example iter_blank_test : calls 1 (iter (cat ["          "; nl; tab; tab; "   "; nl; nl; nl; "   "; tab; cr; nl]%string)) = [None].
Proof. vm_compute. reflexivity. Qed.
(** line_iter.rs:86-113 *)
Example iter_strict_test :
  calls 3 (iter (text ["msgid ""Line 1"""; "msgstr ""Line 2"""]%string))
  = [Some (ILine (PMessage 1 [] (lit "msgid") (lit "Line 1"))); Some (ILine (PMessage 2 [] (lit "msgstr") (lit "Line 2"))); None].
Proof. vm_compute. reflexivity. Qed.
(** line_iter.rs:117-148 *)
Example iter_normal_test :
  calls 3 (iter (text [""; "            #~ msgid ""Line 1"""; "            #~ msgstr ""Line 2"""; "        "]%string))
  = [Some (ILine (PMessage 2 (lit "~") (lit "msgid") (lit "Line 1"))); Some (ILine (PMessage 3 (lit "~") (lit "msgstr") (lit "Line 2"))); None].
Proof. vm_compute. reflexivity. Qed.
(** line_iter.rs:152-195 *)
Example iter_parse_error_test :
  match calls 4 (iter (text [""; "            #: File:1"; "            msgid ""Line 1"""; "            msgstr ""Line 2"; "";
                             "            # End"; "        "]%string)) with
  | [Some (ILine l1); Some (ILine l2); Some (IFail e); None] =>
      l1 = PComment 2 58 (lit "File:1") /\ l2 = PMessage 3 [] (lit "msgid") (lit "Line 1")
      /\ debug e = u8 "Parse error at line 5, got ‘            msgstr ""Line 2’"
  | _ => False
  end.
Proof. vm_compute. repeat split. Qed.
(** line_iter.rs:199-212 *)
Example iter_io_error_test :
  match calls 1 (li_new [RdData (bytes "ABC2" ++ [128] ++ bytes "2")]) with [Some (IFail _)] => True | _ => False end.
Proof. vm_compute. trivial. Qed.

(** * decoder.rs *)
(** decoder.rs:208-254 *)
Example fetch_next_test :
  (let ls := all_lines (text ["msgid ""line 1"""; "msgstr ""line 2"""]%string) in
   fst (fetch_next ls) = Ok (Some (PMessage 1 [] (lit "msgid") (lit "line 1")))
   /\ fst (fetch_next (tl (snd (fetch_next ls)))) = Ok (Some (PMessage 2 [] (lit "msgstr") (lit "line 2")))
   /\ fst (fetch_next (tl (snd (fetch_next (tl (snd (fetch_next ls))))))) = Ok None)
  /\ fails (fst (fetch_next (all_lines "msgid ""line 1"))) "Parse error at line 2, got ‘msgid ""line 1’".
Proof. vm_compute. repeat split. Qed.
(** decoder.rs:257-305 *)
Example parse_msg_test :
  (let ls0 := all_lines (text ["#~ msgid ""this"""; "msgid ""that"""]%string) in
   let (r1, ls1) := parse_msg false (lit "---") ls0 in let (r2, ls2) := parse_msg false (lit "msgid") ls1 in
   let (r3, ls3) := parse_msg true (lit "msgid") ls2 in
   let (r4, ls4) := parse_msg true (lit "---") ls3 in let (r5, ls5) := parse_msg true (lit "msgid") ls4 in
   [r1; r2; r3; r4; r5] = [Ok None; Ok None; Ok (Some (lit "this")); Ok None; Ok None])
  /\ fst (parse_msg false (lit "msgid") (all_lines (text ["msgid ""this"""; """ is"""; """ good"""]%string))) = Ok (Some (lit "this is good"))
  /\ fails (fst (parse_msg false (lit "msgid") (all_lines "msgid ""this"))) "Parse error at line 2, got ‘msgid ""this’"
  /\ fails (fst (parse_msg false (lit "msgid") (all_lines (text ["msgid ""this"""; """ is bad"]%string)))) "Parse error at line 3, got ‘"" is bad’".
Proof. vm_compute. repeat split. Qed.
(** decoder.rs:308-360 *)
Example expected_test :
  (let ls := all_lines "   " in fst (expected [] ls) = Ok tt /\ fst (expected [] (snd (next ls))) = Ok tt)
  /\ fails (fst (expected [] (all_lines "---"))) "Parse error at line 2, got ‘---’"
  /\ (let ls := all_lines (text ["# this is a test"; "msgid ""hello,"""; """it's me"""]%string) in
      fails (fst (expected (lit "here-1") ls)) "Parse error at line 1 expected ‘here-1’, got ‘# ’"
      /\ fails (fst (expected (lit "here-2") (snd (next ls)))) "Parse error at line 2 expected ‘here-2’"
      /\ fails (fst (expected (lit "here-3") (snd (next (snd (next ls)))))) "Parse error at line 3 expected ‘here-3’, got ‘""’").
Proof. vm_compute. repeat split. Qed.

(** * plural/formula *)
(** formula/mod.rs:26-299: source, tree, counts with their values; [None] is an error *)
Definition formula_case (s : string) (e : node) (l : list (N * option N)) : Prop :=
  formula_parse (lit s) = Some e /\ map (fun c => formula_execute pf e (fst c)) l = map (fun c => Some (snd c)) l.
Definition big : node :=
  NCond (NBin BGt NVar (NNum 10))
    (NCond (NBin BEq (NBin BMod NVar (NNum 10)) (NNum 3)) (NNum 10)
       (NCond (NBin BLt NVar (NNum 100)) (NNum 20)
          (NCond (NUn UNot (NBin BGt NVar (NNum 200))) (NBin BAdd (NUn UNeg NVar) (NNum 1000)) (NNum 1234))))
    (NBin BSub NVar (NNum 10)).
Example formula_test :
  formula_case "" NVar [(100, Some 100)]
  /\ formula_case "n" NVar [(100, Some 100)]
  /\ formula_case "100" (NNum 100) [(0, Some 100); (5, Some 100); (100, Some 100)]
  /\ formula_case "0" (NNum 0) [(0, Some 0); (5, Some 0); (100, Some 0)]
  /\ formula_parse (lit "azerty") = None
  /\ formula_case "n + 10" (NBin BAdd NVar (NNum 10)) [(100, Some 110)]
  /\ formula_parse (lit "n + ") = None
  /\ formula_case "n - 10" (NBin BSub NVar (NNum 10)) [(5, None); (10, Some 0); (100, Some 90)]
  /\ formula_case "n * 10" (NBin BMul NVar (NNum 10)) [(0, Some 0); (5, Some 50)]
  /\ formula_case "n / 10" (NBin BDiv NVar (NNum 10)) [(0, Some 0); (20, Some 2); (35, Some 3)]
  /\ formula_case "n % 10" (NBin BMod NVar (NNum 10)) [(0, Some 0); (23, Some 3); (35, Some 5)]
  /\ formula_case "n == 10" (NBin BEq NVar (NNum 10)) [(100, Some 0); (10, Some 1)]
  /\ formula_case "n != 10" (NBin BNe NVar (NNum 10)) [(2, Some 1); (100, Some 1); (10, Some 0)]
  /\ formula_case "n < 10" (NBin BLt NVar (NNum 10)) [(2, Some 1); (100, Some 0); (10, Some 0)]
  /\ formula_case "n <= 10" (NBin BLte NVar (NNum 10)) [(2, Some 1); (100, Some 0); (10, Some 1)]
  /\ formula_case "n > 10" (NBin BGt NVar (NNum 10)) [(2, Some 0); (100, Some 1); (10, Some 0)]
  /\ formula_case "n >= 10" (NBin BGte NVar (NNum 10)) [(2, Some 0); (100, Some 1); (10, Some 1)]
  /\ formula_case "!n" (NUn UNot NVar) [(100, Some 0); (0, Some 1)]
  /\ formula_case "-n" (NUn UNeg NVar) [(100, None); (0, Some 0)]
  /\ formula_case "(5 < n) && n <= 25" (NBin BAnd (NBin BLt (NNum 5) NVar) (NBin BLte NVar (NNum 25)))
       [(100, Some 0); (0, Some 0); (5, Some 0); (10, Some 1); (25, Some 1)]
  /\ formula_case "(5 >= n) || n > 25" (NBin BOr (NBin BGte (NNum 5) NVar) (NBin BGt NVar (NNum 25)))
       [(100, Some 1); (0, Some 1); (5, Some 1); (10, Some 0); (25, Some 0)]
  /\ formula_case "n < 10 ? 1 : 2" (NCond (NBin BLt NVar (NNum 10)) (NNum 1) (NNum 2)) [(100, Some 2); (0, Some 1); (10, Some 2)]
  /\ formula_case "n > 10 ? (n % 10) == 3 ? 10 : n < 100 ? 20 : (!(n > 200) ? -n + 1000 : 1234) : n - 10" big
       [(0, None); (10, Some 0); (43, Some 10); (53, Some 10); (55, Some 20); (44, Some 20); (441, Some 1234); (404, Some 1234);
        (150, Some 850); (156, Some 844); (200, Some 800)]
  /\ formula_parse (lit "n > 10 ? (n % 10) == 3 ? 10 : (n < 100 ? 20 : (!(n > 200) ? -n + 1000 : 1234) : n - 10") = None.
Proof. vm_compute. repeat split. Qed.
(** node.rs:166-382 *)
Local Open Scope Z_scope.
Definition node_case (e : node) (l : list (Z * Z)) : Prop :=
  map (fun c => execute true e (fst c)) l = map (fun c => Some (snd c)) l.
Example execute_test :
  node_case NVar [(-100, -100); (-10, -10); (100, 100)]
  /\ node_case (NNum 100) [(-100, 100); (-10, 100); (0, 100); (5, 100); (100, 100)]
  /\ node_case (NBin BAdd NVar (NNum 10)) [(-100, -90); (-10, 0); (100, 110)]
  /\ node_case (NBin BSub NVar (NNum 10)) [(-100, -110); (5, -5); (10, 0); (100, 90)]
  /\ node_case (NBin BMul NVar (NNum 10)) [(-2, -20); (0, 0); (5, 50)]
  /\ node_case (NBin BDiv NVar (NNum 10)) [(-2, 0); (-20, -2); (0, 0); (20, 2); (35, 3)]
  /\ node_case (NBin BDiv (NNum 1000) NVar) [(0, i64_max_z); (-10, -100); (100, 10)]
  /\ node_case (NBin BMod NVar (NNum 10)) [(-12, -2); (-10, 0); (0, 0); (23, 3); (35, 5)]
  /\ node_case (NBin BMod NVar (NNum 0)) [(-12, -12); (-10, -10); (0, 0); (23, 23); (35, 35)]
  /\ node_case (NBin BEq NVar (NNum 10)) [(-12, 0); (2, 0); (100, 0); (10, 1)]
  /\ node_case (NBin BNe NVar (NNum 10)) [(-12, 1); (2, 1); (100, 1); (10, 0)]
  /\ node_case (NBin BLt NVar (NNum 10)) [(-12, 1); (2, 1); (100, 0); (10, 0)]
  /\ node_case (NBin BLte NVar (NNum 10)) [(-12, 1); (2, 1); (100, 0); (10, 1)]
  /\ node_case (NBin BGt NVar (NNum 10)) [(-12, 0); (2, 0); (100, 1); (10, 0)]
  /\ node_case (NBin BGte NVar (NNum 10)) [(-12, 0); (2, 0); (100, 1); (10, 1)]
  /\ node_case (NUn UNot NVar) [(-12, 0); (100, 0); (0, 1)]
  /\ node_case (NUn UNeg NVar) [(-12, 12); (100, -100); (0, 0)]
  /\ node_case (NBin BAnd (NBin BLt (NNum (-5)) NVar) (NBin BLte NVar (NNum 25)))
       [(-12, 0); (100, 0); (0, 1); (-3, 1); (10, 1); (-5, 0); (25, 1)]
  /\ node_case (NBin BOr (NBin BGte (NNum (-5)) NVar) (NBin BGt NVar (NNum 25)))
       [(-12, 1); (100, 1); (0, 0); (-3, 0); (10, 0); (-5, 1); (25, 0)]
  /\ node_case (NCond (NBin BLt NVar (NNum 10)) (NNum 1) (NNum 2)) [(-12, 1); (100, 2); (0, 1); (-3, 1); (10, 2)]
  /\ node_case big [(-12, -22); (0, -10); (10, 0); (43, 10); (53, 10); (55, 20); (44, 20); (441, 1234); (404, 1234); (150, 850);
                    (156, 844); (200, 800)].
Proof. vm_compute. repeat split. Qed.
(** The same on a finite stack. *)
Example stack_execute_test : map (fun n => stack_execute 10 true big n) [-12; 0; 43; 441; 150] = map SValue [-22; -10; 10; 1234; 850].
Proof. vm_compute. reflexivity. Qed.
(** node.rs:385-427, the inequalities *)
Example node_eq_test :
  map (fun e => node_eqb e NVar) [NNum 0; NUn UNot NVar; NBin BAdd NVar NVar; NCond NVar NVar NVar; NVar] = [false; false; false; false; true].
Proof. reflexivity. Qed.
(** node.rs:453-462 *)
Example node_functions_test :
  get_infinity 10 = i64_max_z /\ get_infinity (-10) = i64_min_z /\ bool_to_num false = 0 /\ bool_to_num true = 1.
Proof. repeat split. Qed.
Local Close Scope Z_scope.

(** * plural/forms.rs *)
(** forms.rs:87-135 *)
Definition formula1 : string := "(n%10==1 && n%100!=11 ? 0 : n%10>=2 && (n%100<10 or n%100>=20) ? 1 : 2)".
Definition definition1 : string := String.append "nplurals=3; plural=" (String.append formula1 ";").
Definition cases1 : list (N * N) :=
  [(1, 0); (21, 0); (31, 0); (41, 0); (121, 0); (131, 0); (10, 2); (20, 2); (110, 2); (120, 2); (210, 2); (11, 2); (111, 2); (211, 2);
   (14, 2); (114, 2); (2, 1); (5, 1); (24, 1); (102, 1); (105, 1); (124, 1)].
Definition ok {A} (o : outcome A) : option A := match o with Ok a => Some a | _ => None end.
Definition forms1 : option plural_forms := Eval vm_compute in ok (plural_forms_parse pf (lit definition1)).
(** forms.rs:138-196, 220-227 *)
Example forms_test :
  fails (plural_forms_parse pf (lit "nplurals=abc; plural=n>1 ? 0 : 1;")) "Error in plurals forms: invalid digit found in string"
  /\ map (fun c => form forms1 (fst c)) cases1 = map (fun c => Some (Some (snd c))) cases1
  /\ option_map (fun f => (pf_count f, pf_definition f, pf_source f)) forms1 = Some (3, lit definition1, lit formula1)
  /\ option_map pf_count (ok (plural_forms_parse pf (lit "plural=n>1 ? 0 : 1;"))) = Some 2
  /\ match plural_forms_parse pf (lit "nplurals=wrong; plural=0") with Err _ => True | _ => False end.
Proof. vm_compute. repeat split. Qed.
(** forms.rs:62-78 *)
Definition forms_empty : plural_forms := PluralForms (NNum 0) 0 [] [].
Definition forms_shift : plural_forms := PluralForms (NBin BSub NVar (NNum 100)) 200 (lit "nplurals=200; plural=n-100") (lit "n-100").
(** message_extractor.rs:511-551 *)
Example forms_values_test :
  map (form (Some forms_empty)) [0; 100] = [Some None; Some None]
  /\ map (form (Some forms_shift)) [50; 500; 150] = [Some None; Some None; Some (Some 50)]
  /\ map (form forms1) [1; 24; 10] = [Some (Some 0); Some (Some 1); Some (Some 2)].
Proof. vm_compute. repeat split. Qed.

(** * plural/plural.rs *)
(** plural.rs:84-96 *)
Definition forms2 : option plural_forms := Eval vm_compute in ok (plural_forms_parse pf (lit "nplurals=2; plural=n>1;")).
Definition fr1 : str := lit "Ma voiture est merveilleuse".
Definition fr2 : str := lit "Mes voitures sont merveilleuses".
Definition cars : plural := plural_new (lit "My car is wonderful") (lit "My cars are wonderful") [fr1; fr2] forms2.
Definition blank (values : list str) : plural := plural_new [] [] values None.
(** plural.rs:105-196 *)
Example plural_test :
  pl_singular cars = lit "My car is wonderful" /\ pl_plural cars = lit "My cars are wonderful" /\ pl_values cars = [fr1; fr2]
  /\ option_map (fun f => (pf_count f, pf_source f)) (pl_forms cars) = Some (2, lit "n>1") /\ pl_forms (blank []) = None
  /\ plural_first cars = fr1 /\ plural_first (blank []) = []
  /\ plural_is_blank cars = false /\ plural_is_blank (blank []) = true /\ plural_is_blank (blank [[]; []]) = true
  /\ plural_is_blank (blank [[]; lit "Something"; []]) = false
  /\ map (plural_get pf cars) [0; 1; 2; 10; 100] = map (fun s => Some (Some s)) [fr1; fr1; fr2; fr2; fr2].
Proof. vm_compute. repeat split. Qed.

(** * enums/message.rs *)
Definition something : str := lit "Something".
(** message.rs:118-160 *)
Example message_eq_test :
  let simple := MSimple (lit "id") None in let pl := MPlural (plural_new (lit "id") (lit "val") [] None) in
  msg_eqb simple simple = true /\ msg_eqb pl pl = true /\ msg_eqb simple pl = false
  /\ msg_eqb simple (MSimple (lit "id") (Some [])) = true /\ msg_eqb (MSimple (lit "id") (Some [])) simple = true
  /\ msg_eqb (MSimple (lit "id") (Some (lit "txt"))) simple = false /\ message_default = MSimple [] None.
Proof. vm_compute. repeat split. Qed.
(** message.rs:163-293: is_empty, is_simple, is_plural, is_blank, get_id *)
Example message_tests :
  map msg_is_empty [message_default; MSimple [] None; MSimple [] (Some something); MSimple something None; MPlural (blank [])]
    = [true; true; true; false; false]
  /\ map msg_is_simple [MSimple [] (Some something); MSimple something (Some something); MSimple something None; MPlural (blank [])]
    = [false; true; true; false]
  /\ map msg_is_plural [message_default; MPlural (blank [])] = [false; true]
  /\ map msg_is_blank [message_default; MSimple something None; MSimple something (Some []); MSimple something (Some (lit "Here"));
                       MPlural (blank []); MPlural (plural_new something [] [] None)]
    = [true; true; true; false; true; true]
  /\ map msg_get_id [message_default; MSimple something None; MPlural (blank []); MPlural (plural_new something [] [] None)]
    = [[]; something; []; something].
Proof. vm_compute. repeat split. Qed.
(** message.rs:295-385: get_text, get_plural_id, get_plural_text, plural *)
Example message_tests_more :
  map msg_get_text [message_default; MSimple [] (Some something); MPlural (blank []); MPlural (blank [something])]
    = [[]; something; []; something]
  /\ map msg_get_plural_id [message_default; MSimple something (Some (lit "Here")); MPlural (plural_new [] something [] None)]
    = [None; None; Some something]
  /\ map (fun m => plural_text m 100) [message_default; MSimple something None; MSimple something (Some (lit "Here"))]
    = [Some None; Some None; some_text "Here"]
  /\ map (plural_text (MPlural (plural_new [] [] [lit "Something-1"; lit "Something-2"] (Some forms_shift)))) [50; 100; 101]
    = [Some None; some_text "Something-1"; some_text "Something-2"]
  /\ map msg_plural [message_default; MSimple something (Some (lit "Here")); MPlural (blank []); MPlural (plural_new something (lit "Here") [] None)]
    = [None; None; Some (blank []); Some (plural_new something (lit "Here") [] None)].
Proof. vm_compute. repeat split. Qed.

(** * error.rs *)
(** error.rs:152-240 with the I/O error given by its Display or Debug text *)
Definition display (e : error) : str := error_format (fun _ => lit "Error in plurals forms: message") e.
Definition debug_io (e : error) : str := error_format (fun _ => lit "Custom { kind: Other, error: Error in plurals forms: message }") e.
Example error_test :
  display (EIo 0 (IoRead 1)) = u8 "Error in plurals forms: message"
  /\ display (EIo 10 (IoRead 1)) = u8 "Error in plurals forms: message at line 10"
  /\ debug_io (EIo 0 (IoRead 1)) = u8 "Custom { kind: Other, error: Error in plurals forms: message }"
  /\ debug_io (EIo 10 (IoRead 1)) = u8 "Custom { kind: Other, error: Error in plurals forms: message } at line 10"
  /\ map (fun f => f (EUnexpected 0 (lit "message"))) [display; debug_io] = repeat (u8 "Unexpected error: message") 2
  /\ map (fun f => f (EUnexpected 10 (lit "message"))) [display; debug_io] = repeat (u8 "Unexpected error at line 10: message") 2
  /\ map (fun f => f (EParse 10 (lit "token1") (lit "token2"))) [display; debug_io]
     = repeat (u8 "Parse error at line 10 expected ‘token2’, got ‘token1’") 2
  /\ map (fun f => f (EPluralForms (lit "message"))) [display; debug_io] = repeat (u8 "Error in plurals forms: message") 2
  /\ error_source (EIo 10 (IoRead 1)) = Some (IoRead 1) /\ error_source (EUnexpected 15 (lit "weird")) = None.
Proof. vm_compute. repeat split. Qed.
(** error.rs:163-169; the text of the Debug format is that of error.rs:205-209 *)
Example io_from_test :
  let err := io_from (EPluralForms (lit "message")) in
  io_kind_of err = Some KOther /\ io_display (fun _ => []) err = u8 "Error in plurals forms: message"
  /\ io_debug (fun _ => []) err = u8 "Custom { kind: Other, error: Error in plurals forms: message }".
Proof. vm_compute. repeat split. Qed.

(** * message_extractor.rs *)
Definition fields (forms : option plural_forms) (first : bool) (s : string) : outcome (option unit_) :=
  fst (parse_message_fields forms first unit_default (all_lines s)).
(** message_extractor.rs:297-333 *)
Example fields_singular_test :
  match fields None true (text ["#| msgctxt ""prev-ctx"""; "#| msgid ""prev-id"""; "msgctxt ""my-ctx"""; "msgid ""my-id""";
                                "msgstr ""my-text"""]%string) with
  | Ok (Some u) =>
      u_prev_context u = Some (lit "prev-ctx") /\ u_context u = Some (lit "my-ctx")
      /\ u_prev_message u = MSimple (lit "prev-id") None /\ u_message u = MSimple (lit "my-id") (Some (lit "my-text"))
      /\ map (plural_text (u_prev_message u)) [1; 24] = [Some None; Some None]
      /\ map (plural_text (u_message u)) [1; 24] = [some_text "my-text"; some_text "my-text"]
  | _ => False
  end.
Proof. vm_compute. repeat split. Qed.
(** message_extractor.rs:336-377 *)
Example fields_plural_test :
  match fields forms1 true (text ["#| msgctxt ""prev-ctx"""; "#| msgid ""prev-id"""; "#| msgid_plural ""prev-plural"""; "msgctxt ""my-ctx""";
                                  "msgid ""my-id"""; "msgid_plural ""my-plural"""; "msgstr[0] ""my-text-1"""; "msgstr[1] ""my-text-2""";
                                  "msgstr[2] ""my-text-3"""]%string) with
  | Ok (Some u) =>
      u_prev_context u = Some (lit "prev-ctx") /\ u_context u = Some (lit "my-ctx")
      /\ msg_is_plural (u_prev_message u) = true /\ msg_get_id (u_prev_message u) = lit "prev-id" /\ msg_get_text (u_prev_message u) = []
      /\ msg_get_plural_id (u_prev_message u) = Some (lit "prev-plural")
      /\ map (plural_text (u_prev_message u)) [1; 24] = [Some None; Some None]
      /\ msg_is_plural (u_message u) = true /\ msg_get_id (u_message u) = lit "my-id" /\ msg_get_text (u_message u) = lit "my-text-1"
      /\ msg_get_plural_id (u_message u) = Some (lit "my-plural")
      /\ map (plural_text (u_message u)) [1; 24; 114] = [some_text "my-text-1"; some_text "my-text-2"; some_text "my-text-3"]
  | _ => False
  end.
Proof. vm_compute. repeat split. Qed.
(** message_extractor.rs:380-419 *)
Example fields_empty_test :
  match fields forms1 true "msgstr ""some text""" with Ok (Some u) => msg_is_empty (u_message u) = true /\ msg_get_text (u_message u) = [] | _ => False end
  /\ match fields forms1 true (text ["msgid """""; "msgstr ""some text"""]%string) with
     | Ok (Some u) => msg_is_empty (u_message u) = true /\ msg_get_text (u_message u) = lit "some text" | _ => False end
  /\ fields forms1 false "" = Ok None.
Proof. vm_compute. repeat split. Qed.
(** message_extractor.rs:554-594 *)
Example new_previous_test :
  new_previous None None None = message_default /\ new_previous None None (Some something) = message_default
  /\ (let p := new_previous None (Some (lit "my-msg")) None in
      (msg_is_empty p, msg_is_blank p, msg_is_simple p, msg_is_plural p, msg_get_id p, msg_get_text p, msg_get_plural_id p)
      = (false, true, true, false, lit "my-msg", [], None) /\ map (plural_text p) [0; 2] = [Some None; Some None])
  /\ (let p := new_previous None (Some (lit "my-msg")) (Some (lit "my-plural")) in
      (msg_is_empty p, msg_is_blank p, msg_is_simple p, msg_is_plural p, msg_get_id p, msg_get_text p, msg_get_plural_id p)
      = (false, true, false, true, lit "my-msg", [], Some (lit "my-plural")) /\ map (plural_text p) [0; 2] = [Some None; Some None]).
Proof. vm_compute. repeat split. Qed.

(** * reader.rs *)
(** reader.rs:258-275 *)
Definition source : string :=
  text ["#, flag1, flag2, fuzzy"; "#$ Any comment 1"; "#& Any comment 2"; "# Any note"; "#: File1:1 File1:2"; "#: File2:1 File2:2";
        "msgctxt ""Any context"""; "msgid """""; "msgstr """""; """Any-Header: Value\n"""; """Language: fr\n"""; "";
        "msgid ""Hello, world !"""; "msgstr ""Salut, tout le monde !"""]%string.
(** reader.rs:277-308 *)
Definition header_text : string := text ["Header-1: Value1"; "Language: en"; "Plural-Forms: nplurals=2; plural=(n > 1);"; "Header-2: ValueA"; "Header-1: Value2"]%string.
Definition with_message (m : message) : unit_ := Unit None m None message_default [] [] [] [] StEmpty false.
Definition header_unit (s : string) : unit_ := with_message (MSimple [] (Some (lit s))).
Definition test_reader (s : string) : reader :=
  Reader (all_lines s) (Some (UOk (header_unit header_text)))
    [Note Translator (lit "You"); Note Developer (lit "Me")] [Comment 43 (lit "Comment 1"); Comment 61 (lit "Comment 2")] [] [] None.
(** reader.rs:311-321 *)
Example reader_empty_test : match po_parse lib pf (stream "") with Ok r => rd_next_unit r = None | _ => False end.
Proof. vm_compute. reflexivity. Qed.
(** reader.rs:324-348 (without the text of the error) *)
Example header_error_test :
  match fst (parse_po_header lib pf (with_next_unit (test_reader "") (Some (UOk (header_unit "Plural-Forms: plural=1+;"))))) with
  | Err (EPluralForms _) => True | _ => False end.
Proof. vm_compute. trivial. Qed.
(** reader.rs:351-374 *)
Example header_language_test :
  match parse_po_header lib pf (with_next_unit (test_reader "") (Some (UOk (header_unit "Language: fx42")))) with
  | (Ok tt, r) => rd_target_language r = lang_invariant lib | _ => False end.
Proof. vm_compute. reflexivity. Qed.
(** reader.rs:377-427 *)
Example header_test :
  match parse_po_header lib pf (test_reader "") with
  | (Ok tt, r) =>
      rd_header_notes r = [Note Translator (lit "You"); Note Developer (lit "Me")]
      /\ map (fun k => sm_get (lit k) (rd_header_properties r)) ["Header-1"; "Header-2"; "Language"; "Plural-Forms"]%string
         = [Some (lit "Value1 Value2"); Some (lit "ValueA"); Some (lit "en"); Some (lit "nplurals=2; plural=(n > 1);")]
      /\ length (rd_header_properties r) = 4%nat
      /\ rd_header_comments r = [Comment 43 (lit "Comment 1"); Comment 61 (lit "Comment 2")]
      /\ rd_target_language r = lit "en"
      /\ option_map (fun f => (pf_source f, pf_definition f, pf_count f)) (rd_plural_forms r)
         = Some (lit "(n > 1)", lit "nplurals=2; plural=(n > 1);", 2)
  | _ => False
  end.
Proof. vm_compute. repeat split. Qed.
(** reader.rs:430-487 *)
Definition skip (r : reader) : reader := with_lines r (snd (next (rd_lines r))).
Example read_line_test :
  (let r := test_reader (text ["#~ msgid ""my-id-1"""; "msgid ""my-id-2"""]%string) in
   let (o1, r1) := read_line r in let (o2, r2) := read_line (skip r1) in let (o3, r3) := read_line (skip r2) in
   [o1; o2; o3] = [Ok (Some (1, true)); Ok (Some (2, false)); Ok None])
  /\ fails (fst (read_line (test_reader "msgid ""my-error"))) "Parse error at line 2, got ‘msgid ""my-error’"
  /\ fails (fst (read_line (with_next_unit (test_reader "msgid ""my-error") (Some (UErr (EUnexpected 123 (lit "An error")))))))
       "Unexpected error at line 123: An error".
Proof. vm_compute. repeat split. Qed.
(** reader.rs:490-597 *)
Definition comments_of (s : string) : res unit_ := parse_comments unit_default (all_lines s).
Example parse_comments_test :
  fails (fst (comments_of "msgid ""my-error")) "Parse error at line 2, got ‘msgid ""my-error’"
  /\ fst (parse_comments unit_default (snd (comments_of "msgid ""my-error"))) = Ok unit_default
  /\ fst (comments_of "msgid ""my-id""") = Ok unit_default
  /\ fails (fst (comments_of (text ["# simple comment"; "msgid ""my-error"]%string))) "Parse error at line 3, got ‘msgid ""my-error’"
  /\ match fst (comments_of (text ["#$ any comment"; "# simple note"]%string)) with
     | Ok u => u_notes u = [Note Translator (lit "simple note")] /\ u_comments u = [Comment 36 (lit "any comment")] | _ => False end
  /\ match fst (comments_of (text ["#  translator comment"; "#. developer comment"; "#: Location:1 Location:2"; "#: Location:3 Location:4";
                                   "#, flag1, flag2"; "#, flag3, fuzzy, flag4"; ""]%string)) with
     | Ok u => u_notes u = [Note Translator (lit "translator comment"); Note Developer (lit "developer comment")]
         /\ u_locations u = [lit "Location:1"; lit "Location:2"; lit "Location:3"; lit "Location:4"]
         /\ u_flags u = [lit "flag1"; lit "flag2"; lit "flag3"; lit "fuzzy"; lit "flag4"] /\ u_state u = StNeedsWork
     | _ => False end.
Proof. vm_compute. repeat split. Qed.
(** reader.rs:600-644 *)
Example parse_unit_test :
  fields None false "msgid """"" = Ok None
  /\ fails (fields None false "msgid """) "Parse error at line 2, got ‘msgid ""’"
  /\ match comments_of source with
     | (Ok u, ls) =>
         match fst (parse_message_fields None true u ls) with
         | Ok (Some u) => msg_is_empty (u_message u) = true /\ msg_is_empty (u_prev_message u) = true
             /\ msg_get_text (u_message u) = lit (text ["Any-Header: Value"; "Language: fr"; ""]%string)
             /\ u_context u = Some (lit "Any context") /\ u_prev_context u = None
         | _ => False end
     | _ => False end.
Proof. vm_compute. repeat split. Qed.
(** reader.rs:647-700 *)
Example read_unit_test :
  match read_unit true (test_reader source) with
  | (Ok (Some u), r) =>
      msg_is_empty (u_message u) = true /\ msg_is_empty (u_prev_message u) = true /\ u_obsolete u = false
      /\ u_comments u = [Comment 36 (lit "Any comment 1"); Comment 38 (lit "Any comment 2")]
      /\ u_locations u = [lit "File1:1"; lit "File1:2"; lit "File2:1"; lit "File2:2"]
      /\ u_flags u = [lit "flag1"; lit "flag2"; lit "fuzzy"] /\ u_notes u = [Note Translator (lit "Any note")]
      /\ u_state u = StNeedsWork /\ msg_get_text (u_message u) = lit (text ["Any-Header: Value"; "Language: fr"; ""]%string)
      /\ u_context u = Some (lit "Any context") /\ u_prev_context u = None
      /\ match fst (read_unit false r) with
         | Ok (Some u) => u_state u = StFinal /\ msg_get_id (u_message u) = lit "Hello, world !"
             /\ msg_get_text (u_message u) = lit "Salut, tout le monde !"
         | _ => False end
  | _ => False
  end.
Proof. vm_compute. repeat split. Qed.
(** reader.rs:703-748 *)
Example read_unit_exceptions_test :
  fails (fst (read_unit false (test_reader "msgid """))) "Parse error at line 2, got ‘msgid ""’"
  /\ fst (read_unit false (test_reader "")) = Ok None
  /\ fst (read_unit false (test_reader "#~ msgid """"")) = Ok None
  /\ fails (fst (read_unit false (test_reader (text ["msgid """""; "msgstr ""Something"""]%string)))) "Unexpected error at line 1: Source should not be empty".
Proof. vm_compute. repeat split. Qed.
(** reader.rs:751-773 *)
Example next_unit_test :
  match next_unit false (test_reader (text ["msgid ""my-id"""; "msgstr ""my-text"""; "msgid ""with-error"""; "msgstr """]%string)) with
  | (Val (Some (UOk u)), r) =>
      msg_get_id (u_message u) = lit "my-id" /\ msg_get_text (u_message u) = lit "my-text"
      /\ match next_unit false r with
         | (Val (Some (UErr e)), r) => debug e = u8 "Parse error at line 5, got ‘msgstr ""’" /\ fst (next_unit false r) = Val None
         | _ => False end
  | _ => False
  end.
Proof. vm_compute. repeat split. Qed.
(** reader.rs:776-806 *)
Example new_errors_test :
  fails (po_parse lib pf (stream "msgid: ""--")) "Parse error at line 2, got ‘msgid: ""--’"
  /\ fails (po_parse lib pf (stream (text ["msgid """""; "msgstr """""; """Plural-Forms: plural=1+"""]%string)))
       "Unexpected error: Bad value list definition: `plural=1+`".
Proof. vm_compute. repeat split. Qed.
(** reader.rs:809-868 *)
Example new_test :
  match po_parse lib pf (stream source) with
  | Ok r =>
      rd_target_language r = lit "fr" /\ rd_header_notes r = [Note Translator (lit "Any note")]
      /\ rd_header_comments r = [Comment 36 (lit "Any comment 1"); Comment 38 (lit "Any comment 2")]
      /\ rd_header_properties r = [(lit "Any-Header", lit "Value"); (lit "Language", lit "fr")] /\ rd_plural_forms r = None
      /\ match po_next r with
         | (Val (Some (UOk u)), r) => msg_get_id (u_message u) = lit "Hello, world !"
             /\ msg_get_text (u_message u) = lit "Salut, tout le monde !" /\ fst (po_next r) = Val None
         | _ => False end
  | _ => False
  end.
Proof. vm_compute. repeat split. Qed.
(** reader.rs:871-903 *)
Example iterator_error_test :
  match po_parse lib pf (stream (text ["msgid ""msg"""; "msgstr ""text"""; ""; "#? xxx"; "msgid """]%string)) with
  | Ok r =>
      match po_next r with
      | (Val (Some (UOk u)), r) =>
          msg_get_id (u_message u) = lit "msg" /\ msg_get_text (u_message u) = lit "text"
          /\ match po_next r with
             | (Val (Some (UErr e)), r) => debug e = u8 "Parse error at line 6, got ‘msgid ""’" /\ fst (po_next r) = Val None
             | _ => False end
      | _ => False end
  | _ => False
  end.
Proof. vm_compute. repeat split. Qed.

(** * tests/integration_test.rs *)
(** integration_test.rs:5-50 *)
Definition sample : string :=
  text [""; "msgid """""; "msgstr """""; """Project-Id-Version: poreader test\n"""; """PO-Revision-Date: 2017-04-24 21:39+02:00\n""";
        """Last-Translator: Frédéric Meyer <frederic.meyer.77@gmail.com>\n"""; """Language-Team: French\n"""; """Language: fr\n""";
        """MIME-Version: 1.0\n"""; """Header1: Value1\n"""; """Header2: ValueX\n"""; """Header1: Value2\n""";
        """Content-Type: text/plain; charset=ISO-8859-2\n"""; """Content-Transfer-Encoding: 8bit\n""";
        """Plural-Forms: nplurals=3;\n"""; """Plural-Forms: plural=(n==1) ? 0 : (n>=2 && n<=4) ? 1 : 2;\n"""; "";
        "msgid ""Simple message"""; "msgstr ""Un simple message"""; "";
        "#. Extracted comment"; "#  Translator comment"; "#: Location:42  Another:69"; "#, fuzzy"; "#| msgctxt ""ConTeXt""";
        "#| msgid ""Previous message"""; "msgctxt ""ConTeXt"""; "msgid ""Changed message"""; "msgstr ""Message\n"""; """changé"""; "";
        "msgid ""Untranslated message"""; "msgstr """""; "";
        "msgid ""A message with several translations"""; "msgid_plural ""Some messages with several translations""";
        "msgstr[0] ""Un message avec plusieurs traductions"""; "msgstr[1] ""Quelques messages avec plusieurs traductions""";
        "msgstr[2] ""Des messages avec plusieurs traductions"""; "";
        "# Another comment"; "#~ msgid ""Obsolete message"""; "#~ msgstr ""Message obsolète"""; ""; ""]%string.
Definition sample_reader : option reader := ok (po_parse lib pf (stream sample)).
(** integration_test.rs:59-80 *)
Example sample_header_test :
  match sample_reader with
  | Some r => rd_target_language r = lit "fr"
      /\ map (fun k => sm_get (lit k) (rd_header_properties r)) ["Project-Id-Version"; "Header0"; "Header1"; "Header2"]%string
         = [Some (lit "poreader test"); None; Some (lit "Value1 Value2"); Some (lit "ValueX")]
  | None => False
  end.
Proof. vm_compute. repeat split. Qed.
(** integration_test.rs:82-201 *)
Definition sample_units : option (list uitem) := match sample_reader with Some r => po_collect 10 r | None => None end.
Example sample_units_test :
  match sample_units with
  | Some [UOk u1; UOk u2; UOk u3; UOk u4; UOk u5] =>
      (u_prev_context u1 = None /\ u_context u1 = None /\ msg_get_id (u_prev_message u1) = [] /\ msg_is_simple (u_message u1) = true
       /\ msg_get_id (u_message u1) = lit "Simple message" /\ msg_get_text (u_message u1) = lit "Un simple message"
       /\ msg_get_plural_id (u_message u1) = None /\ plural_text (u_message u1) 1 = some_text "Un simple message"
       /\ u_notes u1 = [] /\ u_locations u1 = [] /\ unit_is_translated u1 = true /\ u_obsolete u1 = false /\ u_state u1 = StFinal)
      /\ (u_prev_context u2 = Some (lit "ConTeXt") /\ u_context u2 = Some (lit "ConTeXt")
          /\ msg_is_simple (u_prev_message u2) = true /\ msg_get_id (u_prev_message u2) = lit "Previous message"
          /\ msg_is_simple (u_message u2) = true /\ msg_get_id (u_message u2) = lit "Changed message"
          /\ msg_get_text (u_message u2) = u8 (text ["Message"; "changé"]%string)
          /\ u_notes u2 = [Note Developer (lit "Extracted comment"); Note Translator (lit "Translator comment")]
          /\ u_locations u2 = [lit "Location:42"; lit "Another:69"]
          /\ unit_is_translated u2 = false /\ u_obsolete u2 = false /\ u_state u2 = StNeedsWork)
      /\ (u_context u3 = None /\ msg_eqb (u_message u3) (MSimple (lit "Untranslated message") None) = true /\ u_prev_context u3 = None
          /\ msg_eqb (u_prev_message u3) message_default = true /\ u_notes u3 = [] /\ u_locations u3 = [] /\ u_state u3 = StEmpty
          /\ unit_is_translated u3 = false /\ u_obsolete u3 = false)
      /\ (msg_get_id (u_message u4) = lit "A message with several translations"
          /\ msg_get_plural_id (u_message u4) = Some (lit "Some messages with several translations")
          /\ map (plural_text (u_message u4)) [1; 10; 3]
             = [some_text "Un message avec plusieurs traductions"; some_text "Des messages avec plusieurs traductions";
                some_text "Quelques messages avec plusieurs traductions"])
      /\ (u_obsolete u5 = true /\ unit_is_translated u5 = true /\ u_locations u5 = [] /\ u_context u5 = None
          /\ msg_eqb (u_message u5) (MSimple (lit "Obsolete message") (Some (u8 "Message obsolète"))) = true
          /\ u_prev_context u5 = None /\ msg_eqb (u_prev_message u5) message_default = true /\ u_state u5 = StFinal
          /\ u_notes u5 = [Note Translator (lit "Another comment")])
  | _ => False
  end.
Proof. vm_compute. repeat split. Qed.
