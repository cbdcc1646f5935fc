(** The line parser: src/po/line.rs, src/po/unescape.rs, src/po/parser.rs. *)
From Coq Require Import String Arith NArith Bool List.
From Verif Require Import ModelBase ModelRegex.
Import ListNotations.
Local Open Scope N_scope.

(** src/po/line.rs:1-13 *)
Inductive po_line :=
| PBlank
| PComment (line : N) (kind : char) (content : str)
| PMessage (line : N) (flags tag text : str)
| PCont (line : N) (flags text : str).

(** src/po/line.rs:15-24 [PoLine::line] *)
Definition po_line_no (l : po_line) : N :=
  match l with
  | PBlank => 0
  | PComment n _ _ => n
  | PMessage n _ _ _ => n
  | PCont n _ _ => n
  end.

(** Character classes of the regex syntax (Unicode mode, the default of the crate). *)
Definition cls_any (c : char) : bool := negb (c =? 10).         (* .  *)
Definition cls_s (c : char) : bool := is_ws c.                  (* \s *)
Definition cls_ns (c : char) : bool := negb (is_ws c).          (* \S *)
Definition cls_d (c : char) : bool := is_nd c.                  (* \d *)
Definition r_ws : re := RStar true (RCls cls_s).                (* \s* *)

(** * src/po/unescape.rs *)

(** unescape.rs:12  [\\([rtnQ\\])] where Q is the double quote *)
Definition unescape_re : re :=
  RSeq (rch 92) (RGrp 1 (RCls (fun c => existsb (N.eqb c) [114; 116; 110; 34; 92]))).

(** unescape.rs:13-20, the table of 42 entries *)
Definition unescape_table : list (option str) :=
  let N1 := None in
  [ Some [34]; N1; N1; N1; N1; N1; N1;
    N1; N1; N1; N1; N1; N1; N1;
    N1; N1; N1; N1; N1; N1; N1;
    N1; N1; N1; N1; N1; N1; N1;
    N1; Some [92]; N1; N1; N1; N1; N1;
    N1; N1; N1; Some [10]; N1; Some [13]; Some [9] ].

(** An array access: [None] is the out-of-bounds panic. *)
Definition table_get (i : nat) : option (option str) := nth_error unescape_table i.

(** unescape.rs:24-34 [replace_char]; outer [None] = index panic *)
Definition replace_char (ch : char) : option (option str) :=
  if (N.land ch 1 =? 0) && (34 <=? ch) && (ch <=? 116)
  then table_get (N.to_nat ((ch - 34) / 2))
  else Some None.

(** unescape.rs:38-44: the replacement closure.  An index panic of the table would show
    up as the string [panic_str], whose only element is not a char; that
    [replace_char] never panics is theorem [replace_char_no_panic]. *)
Definition panic_str : str := [4294967295].
Definition unescape_repl (caps : list (nat * str)) : str :=
  match cap_get 1 caps with
  | None => []                                       (* unwrap_or_default *)
  | Some key =>
      match key with
      | [] => key                                    (* chars().next() = None *)
      | ch :: _ =>
          match replace_char ch with
          | None => panic_str
          | Some (Some s) => s
          | Some None => key                         (* unwrap_or(key) *)
          end
      end
  end.

(** unescape.rs:36-46 [unescape] *)
Definition unescape (text : str) : str := re_replace_all unescape_re unescape_repl text.

(** * src/po/parser.rs *)

(** parser.rs:22  [(\S+?)\s*=\s*(.*?)\s*;] *)
Definition map_re : re :=
  rseq [ RGrp 1 (RPlusLazy (RCls cls_ns)); r_ws; rch 61; r_ws;
         RGrp 2 (RStar false (RCls cls_any)); r_ws; rch 59 ].

(** parser.rs:23  [^\s* ( \S+?\s*=\s*.*?\s*;\s* )* $] (spaces added) *)
Definition map_check_re : re :=
  rseq [ RBol; r_ws;
         RStar true (RGrp 1 (rseq [ RPlusLazy (RCls cls_ns); r_ws; rch 61; r_ws;
                                    RStar false (RCls cls_any); r_ws; rch 59; r_ws ]));
         REol ].

(** parser.rs:24-27
    [^\s*(?:#(~?\|?))?\s*(msgctxt|msgid|msgid_plural|msgstr(?:\[ (?:0|[1-9]\d* ) \])?)?\s*Q ( .* ) Q\s*$]
    (spaces added), where Q is the double quote *)
Definition tag_re : re :=
  RAlt (rlit (lit "msgctxt"))
 (RAlt (rlit (lit "msgid"))
 (RAlt (rlit (lit "msgid_plural"))
       (RSeq (rlit (lit "msgstr"))
             (ROpt (rseq [ rch 91;
                           RAlt (rch 48)
                                (RSeq (RCls (fun c => (49 <=? c) && (c <=? 57)))
                                      (RStar true (RCls cls_d)));
                           rch 93 ]))))).
Definition message_re : re :=
  rseq [ RBol; r_ws;
         ROpt (RSeq (rch 35) (RGrp 1 (RSeq (ROpt (rch 126)) (ROpt (rch 124)))));
         r_ws; ROpt (RGrp 2 tag_re); r_ws;
         rch 34; RGrp 3 (RStar true (RCls cls_any)); rch 34; r_ws; REol ].

(** parser.rs:28  [^\s*#(.)?\s* ( .* ) $] (spaces added) *)
Definition comment_re : re :=
  rseq [ RBol; r_ws; rch 35; ROpt (RGrp 1 (RCls cls_any)); r_ws;
         RGrp 2 (RStar true (RCls cls_any)); REol ].

Definition unwrap_or_default (o : option str) : str :=
  match o with Some s => s | None => [] end.

(** parser.rs:51-81 [parse_line]; [None] is [Err(())] *)
Definition parse_line (line : str) (n : N) : option po_line :=
  if negb (existsb (fun c => negb (is_ws c)) line) then Some PBlank
  else
    match re_captures message_re line with
    | Some c =>
        let text := unescape (unwrap_or_default (cap_get 3 c)) in
        let flags := unwrap_or_default (cap_get 1 c) in
        Some (match cap_get 2 c with
              | None => PCont n flags text
              | Some m =>
                  let tag := if ends_with 124 flags then 124 :: m else m in
                  PMessage n flags tag text
              end)
    | None =>
        match re_captures comment_re line with
        | None => None
        | Some c =>
            Some (PComment n
                    (match cap_get 1 c with
                     | Some (k :: _) => k
                     | _ => 32
                     end)
                    (unwrap_or_default (cap_get 2 c)))
        end
    end.

(** parser.rs:39-49 [parse_map]; [None] is the error
    [Error::Unexpected(0, _)] (Bad value list definition).  Collecting into a
    [HashMap]: a later binding of the same key replaces the earlier one. *)
Definition parse_map (text : str) : option (smap str) :=
  if re_is_match map_check_re text then
    Some (fold_left
            (fun m c =>
               match cap_get 1 c, cap_get 2 c with
               | Some k, Some v => sm_insert k v m
               | _, _ => m
               end)
            (re_captures_iter map_re text) [])
  else None.
