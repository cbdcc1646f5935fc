(** The plural forms of the GNU gettext manual (section Plural forms) and further common ones: the definition to be
    written in the header, and the rule in words (which numbers use which form). *)
From Coq Require Import String Arith NArith Bool List.
From Verif Require Import ModelBase.
Import ListNotations.
Local Open Scope N_scope.

Definition last1 (n : N) : N := n mod 10.
Definition last2 (n : N) : N := n mod 100.
Definition between (a b n : N) : bool := (a <=? n) && (n <=? b).

Record language_rule := Rule { lr_languages : string; lr_count : N; lr_formula : str; lr_form : N -> N }.
Definition rules : list language_rule := [
  Rule "Only one form: Japanese, Vietnamese, Korean, Thai" 1 (lit "0") (fun _ => 0);
  Rule "Singular used for one only: English, German, ..." 2 (lit "n != 1") (fun n => if n =? 1 then 0 else 1);
  Rule "The same, as it is usually written" 2 (lit "(n != 1)") (fun n => if n =? 1 then 0 else 1);
  Rule "Singular used for zero and one: Brazilian Portuguese, French" 2 (lit "n>1") (fun n => if n <=? 1 then 0 else 1);
  Rule "The same, as it is usually written" 2 (lit "(n > 1)") (fun n => if n <=? 1 then 0 else 1);
  Rule "Special case for zero: Latvian" 3 (lit "n%10==1 && n%100!=11 ? 0 : n != 0 ? 1 : 2")
    (fun n => if (last1 n =? 1) && negb (last2 n =? 11) then 0 else if n =? 0 then 2 else 1);
  Rule "Special cases for one and two: Irish" 3 (lit "n==1 ? 0 : n==2 ? 1 : 2")
    (fun n => if n =? 1 then 0 else if n =? 2 then 1 else 2);
  Rule "Special case for numbers ending in 00 or 20 to 99: Romanian" 3 (lit "n==1 ? 0 : (n==0 || (n%100 > 0 && n%100 < 20)) ? 1 : 2")
    (fun n => if n =? 1 then 0 else if between 20 99 (last2 n) || ((last2 n =? 0) && negb (n =? 0)) then 2 else 1);
  Rule "Special case for numbers ending in 0 or 11 to 19: Lithuanian" 3 (lit "n%10==1 && n%100!=11 ? 0 : n%10>=2 && (n%100<10 || n%100>=20) ? 1 : 2")
    (fun n => if (last1 n =? 0) || between 11 19 (last2 n) then 2 else if last1 n =? 1 then 0 else 1);
  Rule "Numbers ending in 1 and 2, 3, 4, except those ending in 11 to 14: Russian, Ukrainian, Belarusian, Serbian, Croatian" 3
    (lit "n%10==1 && n%100!=11 ? 0 : n%10>=2 && n%10<=4 && (n%100<10 || n%100>=20) ? 1 : 2")
    (fun n => if between 11 14 (last2 n) then 2 else if last1 n =? 1 then 0 else if between 2 4 (last1 n) then 1 else 2);
  Rule "Special cases for 1 and 2, 3, 4: Czech, Slovak" 3 (lit "(n==1) ? 0 : (n>=2 && n<=4) ? 1 : 2")
    (fun n => if n =? 1 then 0 else if between 2 4 n then 1 else 2);
  Rule "Special case for one and some numbers ending in 2, 3, or 4: Polish" 3 (lit "n==1 ? 0 : n%10>=2 && n%10<=4 && (n%100<10 || n%100>=20) ? 1 : 2")
    (fun n => if n =? 1 then 0 else if between 2 4 (last1 n) && negb (between 12 14 (last2 n)) then 1 else 2);
  Rule "Special case for one and all numbers ending in 02, 03, or 04: Slovenian" 4 (lit "n%100==1 ? 0 : n%100==2 ? 1 : n%100==3 || n%100==4 ? 2 : 3")
    (fun n => if last2 n =? 1 then 0 else if last2 n =? 2 then 1 else if between 3 4 (last2 n) then 2 else 3);
  Rule "Six forms: Arabic" 6 (lit "n==0 ? 0 : n==1 ? 1 : n==2 ? 2 : n%100>=3 && n%100<=10 ? 3 : n%100>=11 ? 4 : 5")
    (fun n => if n <=? 2 then n else if between 3 10 (last2 n) then 3 else if between 11 99 (last2 n) then 4 else 5);
  (* not in the manual, from the lists of translation tools *)
  Rule "Icelandic" 2 (lit "(n%10!=1 || n%100==11)") (fun n => if (last1 n =? 1) && negb (last2 n =? 11) then 0 else 1);
  Rule "Welsh" 4 (lit "(n==1) ? 0 : (n==2) ? 1 : (n != 8 && n != 11) ? 2 : 3")
    (fun n => if n =? 1 then 0 else if n =? 2 then 1 else if (n =? 8) || (n =? 11) then 3 else 2);
  Rule "Scottish Gaelic" 4 (lit "(n==1 || n==11) ? 0 : (n==2 || n==12) ? 1 : (n > 2 && n < 20) ? 2 : 3")
    (fun n => if (n =? 1) || (n =? 11) then 0 else if (n =? 2) || (n =? 12) then 1 else if between 3 19 n then 2 else 3);
  Rule "Maltese" 4 (lit "(n==1 ? 0 : n==0 || ( n%100>1 && n%100<11) ? 1 : (n%100>10 && n%100<20 ) ? 2 : 3)")
    (fun n => if n =? 1 then 0 else if (n =? 0) || between 2 10 (last2 n) then 1 else if between 11 19 (last2 n) then 2 else 3)
].
(** What stands in the header after Plural-Forms and the colon *)
Definition rule_definition (r : language_rule) : str :=
  lit "nplurals=" ++ [48 + lr_count r] ++ lit "; plural=" ++ lr_formula r ++ lit ";".
(** The form that the crate takes for all counts from 2^63 on, for each of these rules. *)
Definition huge_forms : list N := [0; 1; 1; 0; 0; 1; 2; 2; 2; 2; 2; 2; 3; 5; 1; 2; 3; 3].
