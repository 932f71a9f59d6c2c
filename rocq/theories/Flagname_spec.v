(** When a text is a spelling of a flag: the manual, section "Flag Name Abbreviations" (Figure 25:
    the expanded and short forms are interchangeable; space, dash and underscore may be used inside
    a flag name), with the further pairs of the comment at src/flags.c 940–962. *)
From Verif Require Import Cbase.

Definition forms : list (cstr * cstr) := [
  (lit "constant", lit "const"); (lit "declaration", lit "decl"); (lit "function", lit "fcn");
  (lit "globals", lit "globs"); (lit "implicit", lit "imp"); (lit "implied", lit "imp"); (lit "implies", lit "imp");
  (lit "iterator", lit "iter"); (lit "length", lit "len"); (lit "modifies", lit "mods"); (lit "modify", lit "mod");
  (lit "memory", lit "mem"); (lit "parameter", lit "param"); (lit "pointer", lit "ptr"); (lit "return", lit "ret");
  (lit "variable", lit "var"); (lit "unconstrained", lit "uncon"); (lit "unconst", lit "uncon");
  (lit "unrecognized", lit "unrecog"); (lit "qualifier", lit "qual"); (lit "system", lit "sys")].
(** Figure 25 has "global" for "glob" instead. *)
Definition forms_manual : list (cstr * cstr) := (lit "global", lit "glob") :: forms.

Definition separator (c : ascii) : Prop := c = " "%char \/ c = "-"%char \/ c = "_"%char.

Inductive spelled (fs : list (cstr * cstr)) : cstr -> cstr -> Prop :=
| sp_end : spelled fs [] []
| sp_sep c s n : separator c -> spelled fs s n -> spelled fs (c :: s) n
| sp_char c s n : spelled fs s n -> spelled fs (c :: s) (c :: n)
| sp_form long short s n : In (long, short) fs -> spelled fs s n -> spelled fs (long ++ s) (short ++ n).
