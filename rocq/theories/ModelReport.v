(** The reader with the texts of errors about formulas: as in ModelReader.v, but for the call of
    [PluralForms::parse], which is that of ModelParser.v. *)
From Coq Require Import String Arith NArith Bool List.
From Verif Require Import ModelBase ModelUtf8 ModelLine ModelFormula ModelData ModelSource ModelReader ModelParser SpecReader.
Import ListNotations.

Section Report.
Variable forms_parse : str -> outcome plural_forms.
(** reader.rs:177-213 [parse_po_header] *)
Definition report_header (lib : lang_lib) (r : reader) : outcome unit * reader :=
  match rd_next_unit r with
  | Some (UOk u) =>
      let props := extend_properties (rd_header_properties r) (header_map (msg_get_text (u_message u))) in
      let r := Reader (rd_lines r) (rd_next_unit r) (rd_header_notes r ++ u_notes u)
                      (rd_header_comments r ++ u_comments u) props
                      (header_language lib (rd_target_language r) props) (rd_plural_forms r) in
      match sm_get (lit "Plural-Forms") props with
      | None => (Ok tt, r)
      | Some forms =>
          if is_empty forms then (Ok tt, r)
          else
            match forms_parse forms with
            | Err e => (Err e, r)
            | Panic => (Panic, r)
            | Ok f =>
                (Ok tt, Reader (rd_lines r) (rd_next_unit r) (rd_header_notes r)
                               (rd_header_comments r) (rd_header_properties r)
                               (rd_target_language r) (Some f))
            end
      end
  | _ => (Ok tt, r)
  end.
(** reader.rs:29-61 [PoReader::new] *)
Definition report_new (lib : lang_lib) (ls : lines) : outcome reader :=
  let r0 := Reader ls None [] [] [] (lang_invariant lib) None in
  match next_unit true r0 with
  | (Crash, _) => Panic
  | (Val (Some (UErr e)), _) => Err e
  | (Val nu, r1) =>
      let r2 := with_next_unit r1 nu in
      let has_header := match nu with Some (UOk u) => msg_is_empty (u_message u) | _ => false end in
      if has_header then
        match report_header lib r2 with
        | (Err e, _) => Err e
        | (Panic, _) => Panic
        | (Ok _, r3) =>
            match next_unit false r3 with
            | (Crash, _) => Panic
            | (Val nu, r4) => Ok (with_next_unit r4 nu)
            end
        end
      else Ok r2
  end.
(** Parse, then iterate up to the first [None], as [read_catalogue]. *)
Definition report_all (lib : lang_lib) (evs : list rd_event) : outcome catalogue :=
  match report_new lib (responses (li_new evs)) with
  | Ok r =>
      match po_collect (S (S (length (responses (li_new evs))))) r with
      | Some l => Ok (Catalogue (rd_header_notes r) (rd_header_comments r) (rd_header_properties r)
                                (rd_target_language r) l)
      | None => Panic
      end
  | Err e => Err e
  | Panic => Panic
  end.
End Report.

(** [early], [expected]: as in [forms_result].  That it gives [None] does not happen. *)
Definition report_catalogue (early : list symbol -> option tok -> bool) (expected : str -> fault -> list str) (lib : lang_lib) (pf : platform)
  (evs : list rd_event) : outcome catalogue :=
  report_all (fun def => match forms_result early expected pf def with Some o => o | None => Panic end) lib evs.
