(** The texts of the regular expressions in the source. *)
From Coq Require Import String Arith NArith Bool List.
From Verif Require Import ModelBase ModelRegex ModelLine SpecPattern PatternFacts.
Import ListNotations.
Local Open Scope N_scope.

(** C03, C04: the lines of messages and comments are found with the regular expressions whose
    texts stand in the source. *)
Theorem C03_pattern : stands_for message_pattern message_re.
Proof. exact written_message. Qed.
Print Assumptions C03_pattern.
Theorem C04_pattern : stands_for comment_pattern comment_re.
Proof. exact written_comment. Qed.
Print Assumptions C04_pattern.
(** C02: escapes *)
Theorem C02_pattern : stands_for unescape_pattern unescape_re.
Proof. exact written_unescape. Qed.
Print Assumptions C02_pattern.
(** C27, C28: definition lists *)
Theorem C27_pattern : stands_for map_pattern map_re.
Proof. exact written_map. Qed.
Print Assumptions C27_pattern.
Theorem C28_pattern : stands_for map_check_pattern map_check_re.
Proof. exact written_check. Qed.
Print Assumptions C28_pattern.
(** What texts stand for; texts that are no patterns. *)
Definition pattern_finds (t s : string) : option (list (nat * str)) := match pattern (lit t) with Some r => re_captures r (lit s) | None => None end.
Example pattern_example :
  pattern_finds "a(b*?)(b?)c|d" "xabbc" = Some [(2%nat, lit "b"); (1%nat, lit "b")] /\ pattern_finds "(?:a|b)+(\d)" "abba7" = Some [(1%nat, lit "7")]
  /\ pattern_finds "^[x-z\]]$" "y" = Some [] /\ pattern_finds "^[x-z\]]$" "]" = Some [] /\ pattern_finds "^[x-z\]]$" "w" = None
  /\ map (fun t => pattern (lit t)) ["a("; "a)"; "*"; "[a"; "a\q"; "a{2}"; "a???"]%string = [None; None; None; None; None; None; None].
Proof. vm_compute. repeat split. Qed.
