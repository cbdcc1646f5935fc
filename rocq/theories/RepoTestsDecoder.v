(** The tests of src/po/message_extractor.rs with their mock of the decoder (decoder.rs:81-205), run on
    the model of the extractor.  They are tests of the model, not properties. *)
From Coq Require Import String Arith NArith ZArith Bool List.
From Verif Require Import ModelBase ModelUtf8 ModelLine ModelFormula ModelData ModelSource ModelReader ModelDecoder RepoTests.
Import ListNotations.
Local Open Scope N_scope.

(** decoder.rs:81-104 *)
Inductive test_action := ActOk (s : str) | ActErr (e : error) | ActDelayed (e : error).
Record test_decoder := TestDecoder {
  td_cnt : N; td_command : str; td_message : str; td_log : list str; td_error : option error; td_values : option (smap test_action) }.
(** decoder.rs:107-157 *)
Definition td_new : test_decoder := TestDecoder 0 [] (lit "message-0") [] None None.
Definition td_push (l : list (string * test_action)) (t : test_decoder) : test_decoder :=
  TestDecoder (td_cnt t) (td_command t) (td_message t) (td_log t) (td_error t)
    (Some (fold_left (fun m x => sm_insert (lit (fst x)) (snd x) m) l (match td_values t with Some m => m | None => [] end))).
Definition td_with (l : list (string * test_action)) : test_decoder := td_push l td_new.
Definition td_set_message (s : string) (t : test_decoder) : test_decoder := TestDecoder (td_cnt t) (td_command t) (lit s) (td_log t) (td_error t) (td_values t).
Definition td_set_command (s : string) (t : test_decoder) : test_decoder := TestDecoder (td_cnt t) (lit s) (td_message t) (td_log t) (td_error t) (td_values t).
Definition td_set_error (e : option error) (t : test_decoder) : test_decoder := TestDecoder (td_cnt t) (td_command t) (td_message t) (td_log t) e (td_values t).
Definition td_put_log (s : str) (t : test_decoder) : test_decoder := TestDecoder (td_cnt t) (td_command t) (td_message t) (td_log t ++ [s]) (td_error t) (td_values t).
Definition td_inc (t : test_decoder) : test_decoder :=
  TestDecoder (td_cnt t + 1) (td_command t) (lit "message-" ++ dec_str (td_cnt t + 1)) (td_log t) (td_error t) (td_values t).
Definition td_remove (tag : str) (t : test_decoder) : test_decoder :=
  TestDecoder (td_cnt t) (td_command t) (td_message t) (td_log t) (td_error t) (option_map (filter (fun x => negb (str_eqb (fst x) tag))) (td_values t)).
(** decoder.rs:160-193 *)
Definition td_msg (tag : str) (_ : unit_) (t : test_decoder) : outcome (option str) * test_decoder :=
  match td_error t with
  | Some e => (Err e, td_set_error None t)
  | None =>
      let t := td_put_log (lit "Message: " ++ td_message t ++ lit "/" ++ tag) t in
      let t := if str_eqb (td_command t) (lit "@DoError") then td_set_error (Some (EUnexpected 210 (lit "From command `@DoError`"))) t
               else if str_eqb (td_command t) (lit "@DoInc") then td_inc t else t in
      match td_values t with
      | None => (Ok (Some (td_message t)), t)
      | Some m =>
          match sm_get tag m with
          | None => (Ok None, t)
          | Some (ActOk v) => (Ok (Some v), t)
          | Some (ActErr e) => (Err e, td_remove tag t)
          | Some (ActDelayed e) => (Ok None, td_set_error (Some e) (td_remove tag t))
          end
      end
  end.
(** decoder.rs:195-204 *)
Definition td_expected (exp : str) (t : test_decoder) : outcome unit * test_decoder :=
  if str_eqb exp (td_message t) then
    let t := td_put_log (lit "Expected: " ++ td_message t) t in
    match td_error t with Some e => (Err e, td_set_error None t) | None => (Ok tt, t) end
  else (Ok tt, t).
Definition mock : decoder test_decoder := Decoder _ td_msg td_expected.

(** message_extractor.rs:150-187 *)
Definition unit_empty : unit_ := Unit None message_default None message_default [] [] [lit "EmptyFile1:11"; lit "EmptyFile2:22"; lit "EmptyFile3:33"] [] StEmpty false.
Definition unit_normal : unit_ := Unit (Some (lit "context")) (MSimple (lit "message") (Some (lit "text"))) (Some (lit "prev-context")) (MSimple (lit "prev-message") (Some (lit "prev-text")))
  [lit "flag1"; lit "flag2"; lit "flag3"] [] [] [] StFinal false.
Definition normal (first : bool) (t : test_decoder) := ex_fields mock unit_normal forms1 first t.
Definition error123 : error := EUnexpected 123 (lit "Error").
Definition error123_text : string := "Unexpected error at line 123: Error".
(** message_extractor.rs:190-201, 204-217 *)
Example fields_failing_message_test :
  fails (fst (normal false (td_with [("msgid", ActOk (lit "Something")); ("msgid_plural", ActErr error123)]%string))) error123_text
  /\ fails (fst (normal false (td_set_message "msgid" (td_with [("msgid", ActDelayed error123)]%string)))) error123_text.
Proof. vm_compute. split; reflexivity. Qed.
(** message_extractor.rs:220-294: one decoder, with one more failing answer each time *)
Example fields_failing_answers_test :
  let step (x : list (outcome (option unit_)) * test_decoder) l := let (o, t) := normal false (td_push l (snd x)) in (fst x ++ [o], t) in
  Forall (fun o => fails o error123_text)
    (fst (fold_left step [[("|msgctxt", ActErr error123)]; [("|msgid", ActErr error123)]; [("|msgid", ActOk something); ("|msgid_plural", ActErr error123)];
                          [("msgctxt", ActErr error123)]; [("msgid", ActErr error123)]; [("msgid", ActOk something); ("msgid_plural", ActErr error123)]]%string ([], td_new))).
Proof. vm_compute. repeat constructor. Qed.
(** message_extractor.rs:297-377 with the mock *)
Example fields_mock_test :
  (match fst (ex_fields mock unit_normal None true (td_with [("|msgctxt", ActOk (lit "prev-ctx")); ("|msgid", ActOk (lit "prev-id")); ("msgctxt", ActOk (lit "my-ctx"));
      ("msgid", ActOk (lit "my-id")); ("msgstr", ActOk (lit "my-text"))]%string)) with
   | Ok (Some u) => (u_prev_context u, u_context u, u_prev_message u, u_message u)
       = (Some (lit "prev-ctx"), Some (lit "my-ctx"), MSimple (lit "prev-id") None, MSimple (lit "my-id") (Some (lit "my-text")))
   | _ => False end)
  /\ match fst (normal true (td_with [("|msgctxt", ActOk (lit "prev-ctx")); ("|msgid", ActOk (lit "prev-id")); ("|msgid_plural", ActOk (lit "prev-plural")); ("msgctxt", ActOk (lit "my-ctx"));
      ("msgid", ActOk (lit "my-id")); ("msgid_plural", ActOk (lit "my-plural")); ("msgstr[0]", ActOk (lit "my-text-1")); ("msgstr[1]", ActOk (lit "my-text-2")); ("msgstr[2]", ActOk (lit "my-text-3"))]%string)) with
     | Ok (Some u) => (u_prev_context u, u_context u) = (Some (lit "prev-ctx"), Some (lit "my-ctx"))
         /\ (let m := u_prev_message u in (msg_is_plural m, msg_get_id m, msg_get_text m, msg_get_plural_id m, map (plural_text m) [1; 24]) = (true, lit "prev-id", [], Some (lit "prev-plural"), [Some None; Some None]))
         /\ (let m := u_message u in (msg_is_plural m, msg_get_id m, msg_get_text m, msg_get_plural_id m, map (plural_text m) [1; 24; 114])
              = (true, lit "my-id", lit "my-text-1", Some (lit "my-plural"), [some_text "my-text-1"; some_text "my-text-2"; some_text "my-text-3"]))
     | _ => False end.
Proof. vm_compute. repeat split. Qed.
(** message_extractor.rs:380-419 with the mock *)
Example fields_mock_empty_test :
  let t := td_with [("msgstr", ActOk (lit "some text"))]%string in
  match normal true t with
  | (Ok (Some u), t') =>
      (msg_is_empty (u_message u), msg_get_text (u_message u)) = (true, [])
      /\ match fst (normal true (td_push [("msgid", ActOk [])]%string t')) with
         | Ok (Some u) => (msg_is_empty (u_message u), msg_get_text (u_message u)) = (true, lit "some text") | _ => False end
  | _ => False end
  /\ fst (normal false (td_with [])) = Ok None.
Proof. vm_compute. repeat split. Qed.
(** message_extractor.rs:422-473 *)
Example parse_msg_mock_test :
  let (r1, t1) := ex_msg mock unit_empty (lit "tag1") td_new in
  let (r2, t2) := ex_msg mock unit_empty (lit "tag2") (td_inc t1) in
  let (r3, t3) := ex_msg mock unit_empty (lit "tag3") (td_push [] (td_inc t2)) in
  let (r4, t4) := ex_msg mock unit_empty (lit "tag4") (td_set_error (Some (EUnexpected 123 (lit "An error"))) t3) in
  (r1, td_log t1) = (Ok (Some (lit "message-0")), [lit "Message: message-0/tag1"])
  /\ (r2, td_log t2) = (Ok (Some (lit "message-1")), [lit "Message: message-0/tag1"; lit "Message: message-1/tag2"])
  /\ (r3, td_log t3) = (Ok None, [lit "Message: message-0/tag1"; lit "Message: message-1/tag2"; lit "Message: message-2/tag3"])
  /\ fails r4 "Unexpected error at line 123: An error".
Proof. vm_compute. repeat split. Qed.
(** message_extractor.rs:476-508 *)
Example expected_mock_test :
  let (r1, t1) := ex_expected mock (lit "---") td_new in
  let (r2, t2) := ex_expected mock (lit "message-1") (td_inc t1) in
  let (r3, t3) := ex_expected mock (lit "message-2") (td_set_error (Some (EUnexpected 123 (lit "An error"))) (td_inc t2)) in
  (r1, td_log t1) = (Ok tt, []) /\ (r2, td_log t2) = (Ok tt, [lit "Expected: message-1"])
  /\ fails r3 "Unexpected error at line 123: An error" /\ td_log t3 = [lit "Expected: message-1"; lit "Expected: message-2"].
Proof. vm_compute. repeat split. Qed.
(** message_extractor.rs:596-709 *)
Definition but : error := EUnexpected 123 (lit "But this is expected").
Example new_message_mock_test :
  fails (fst (ex_message mock unit_empty None (Some (lit "MyMsg0")) None (td_set_command "@DoError" (td_set_message "msgstr" (td_with []))))) "Unexpected error at line 210: From command `@DoError`"
  /\ fails (fst (ex_message mock unit_empty None (Some (lit "MyMsg1")) None (td_set_error (Some but) td_new))) "Unexpected error at line 123: But this is expected"
  /\ fails (fst (ex_message mock unit_normal forms1 (Some (lit "MyMsg2")) (Some (lit "MyText1")) (td_set_error (Some but) td_new))) "Unexpected error at line 123: But this is expected"
  /\ fails (fst (ex_message mock unit_empty None (Some (lit "MyMsg3")) (Some (lit "MyText2")) (td_set_command "@DoError" (td_set_message "msgstr[0]" td_new)))) "Unexpected error at line 210: From command `@DoError`"
  /\ fst (ex_message mock unit_empty None (Some (lit "my-msg")) None td_new) = Ok (Some (MSimple (lit "my-msg") (Some (lit "message-0"))))
  /\ fst (ex_message mock unit_normal None (Some (lit "my-id")) (Some (lit "my-plural")) (td_with [])) = Ok None
  /\ match fst (ex_message mock unit_normal forms1 (Some (lit "my-id")) (Some (lit "my-plural")) (td_set_command "@DoInc" td_new)) with
     | Ok (Some (MPlural p)) => (pl_singular p, pl_plural p, pl_values p) = (lit "my-id", lit "my-plural", [lit "message-1"; lit "message-2"; lit "message-3"])
     | _ => False end.
Proof. vm_compute. repeat split. Qed.
