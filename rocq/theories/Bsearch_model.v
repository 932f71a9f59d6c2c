(** Model of the binary search over sorted name lists, src/cstring.c 839–886
    [cstring_bsearch], and of the two lists it is used on (src/nameChecks.c 1150–1163
    [cppNames], 1197–1200 [reservedNames] with src/Headers/reservedNames.nf).

    The number of entries is the length of the list. A table entry may be NULL ([None]). *)
From Verif Require Import Cbase.

(** strcmp, as -1, 0, 1 (characters compared as unsigned char). *)
Fixpoint strcmp (a b : cstr) : Z :=
  match a, b with
  | [], [] => 0
  | [], _ :: _ => -1
  | _ :: _, [] => 1
  | x :: a', y :: b' =>
      if code x =? code y then strcmp a' b'
      else if code x <? code y then -1 else 1
  end.

(** src/cstring.c 469–505 [cstring_compare], first argument defined. *)
Definition compare_entry (key : cstr) (e : option cstr) : Z :=
  match e with
  | None => match key with [] => 0 | _ => -1 end
  | Some t => strcmp key t
  end.

Inductive bresult :=
| Found (e : option cstr)     (** [res] as returned *)
| NotFound                    (** cstring_undefined *)
| AssertFails                 (** an llassert reports an internal error *)
| OutOfTable                  (** table read out of bounds *)
| NoFuel.

Section Search.
Variables (key : cstr) (table : list (option cstr)).

Definition nentries : Z := Z.of_nat (List.length table).
(** table[i] *)
Definition entry (i : Z) : option (option cstr) :=
  if i <? 0 then None else nth_error table (Z.to_nat i).

(** src/cstring.c 876–880: the check after the loop. *)
Definition after_loop (mid : Z) (res : bresult) : bresult :=
  if negb (mid =? 0) && (mid <? nentries - 1) then
    match entry (mid - 1), entry (mid + 1) with
    | Some a, Some b =>
        if (0 <? compare_entry key a) && (compare_entry key b <? 0) then res else AssertFails
    | _, _ => OutOfTable
    end
  else res.

(** src/cstring.c 849–874: the loop. *)
Fixpoint bloop (fuel : nat) (low high mid last : Z) : bresult :=
  match fuel with
  | O => NoFuel
  | S f =>
      if (low <=? high) && (mid <? nentries) then
        if (mid =? last) || negb ((0 <=? mid) && (mid <? nentries)) then AssertFails
        else match entry mid with
             | None => OutOfTable
             | Some e =>
                 let cmp := compare_entry key e in
                 if cmp =? 0 then after_loop mid (Found e)
                 else if cmp <? 0
                      then let high' := mid - 1 in bloop f low high' (Z.quot (high' + low + 1) 2) mid
                      else let low' := mid + 1 in bloop f low' high (Z.quot (high + low' + 1) 2) mid
             end
      else after_loop mid NotFound
  end.

(** src/cstring.c 839–886 [cstring_bsearch], key defined. *)
Definition bsearch : bresult :=
  bloop (S (S (List.length table))) 0 nentries (Z.quot (nentries + 0 + 1) 2) (-1).
End Search.

(** src/nameChecks.c 1150–1163 [cppNames] (39 entries). *)
Definition cppNames : list (option cstr) :=
  map (fun s => Some (lit s)) ["and"%string; "and_eq"%string; "asm"%string; "bitand"%string; 
    "bitor"%string; "bool"%string; "catch"%string; "class"%string; "compl"%string; 
    "const_class"%string; "delete"%string; "dynamic_cast"%string; "false"%string; 
    "friend"%string; "inline"%string; "mutable"%string; "namespace"%string; "new"%string; 
    "not"%string; "not_eq"%string; "operator"%string; "or"%string; "or_eq"%string; 
    "overload"%string; "private"%string; "protected"%string; "public"%string; 
    "reinterpret_cast"%string; "static_cast"%string; "template"%string; "this"%string; 
    "throw"%string; "true"%string; "try"%string; "typeid"%string; "using"%string; 
    "virtual"%string; "xor"%string; "xor_eq"%string].

(** src/Headers/reservedNames.nf, 200 names in an array declared with 201 entries
    (src/nameChecks.c 1140, 1197): the last entry is NULL. *)
Definition reservedNames : list (option cstr) :=
  map (fun s => Some (lit s)) ["BUFSIZ"%string; "CHAR_BIT"%string; "CHAR_MAX"%string; 
    "CHAR_MIN"%string; "CLOCKS_PER_SEC"%string; "DBL_DIG"%string; "DBL_EPSILON"%string; 
    "DBL_MANT_DIG"%string; "DBL_MAX"%string; "DBL_MAX_10_EXP"%string; "DBL_MAX_EXP"%string; 
    "DBL_MIN"%string; "DBL_MIN_10_EXP"%string; "DBL_MIN_EXP"%string; "EXIT_FAILURE"%string; 
    "EXIT_SUCCESS"%string; "FILE"%string; "FILENAME_MAX"%string; "FLT_DIG"%string; 
    "FLT_EPSILON"%string; "FLT_MANT_DIG"%string; "FLT_MAX"%string; "FLT_MAX_10_EXP"%string; 
    "FLT_MAX_EXP"%string; "FLT_MIN"%string; "FLT_MIN_10_EXP"%string; "FLT_MIN_EXP"%string; 
    "FLT_RADIX"%string; "FLT_ROUNDS"%string; "FOPEN_MAX"%string; "HUGE_VAL"%string; 
    "INT_MAX"%string; "INT_MIN"%string; "LDBL_DIG"%string; "LDBL_EPSILON"%string; 
    "LDBL_MANT_DIG"%string; "LDBL_MAX"%string; "LDBL_MAX_10_EXP"%string; 
    "LDBL_MAX_EXP"%string; "LDBL_MIN"%string; "LDBL_MIN_10_EXP"%string; "LDBL_MIN_EXP"%string; 
    "LONG_MAX"%string; "LONG_MIN"%string; "L_tmpnam"%string; "MB_CUR_MAX"%string; 
    "MB_LEN_MAX"%string; "NDEBUG"%string; "NULL"%string; "RAND_MAX"%string; 
    "SCHAR_MAX"%string; "SCHAR_MIN"%string; "SEEK_CUR"%string; "SEEK_END"%string; 
    "SEEK_SET"%string; "SHRT_MAX"%string; "SHRT_MIN"%string; "SIGABRT"%string; 
    "SIGFPE"%string; "SIGILL"%string; "SIGINT"%string; "SIGSEGV"%string; "SIGTERM"%string; 
    "SIG_DFL"%string; "SIG_ERR"%string; "SIG_IGN"%string; "TMP_MAX"%string; 
    "UCHAR_MAX"%string; "UINT_MAX"%string; "ULONG_MAX"%string; "USHRT_MAX"%string; 
    "abort"%string; "abs"%string; "asctime"%string; "assert"%string; "atexit"%string; 
    "atof"%string; "atoi"%string; "atol"%string; "bsearch"%string; "calloc"%string; 
    "clearerr"%string; "clock"%string; "clock_t"%string; "ctime"%string; 
    "currency_symbol"%string; "decimal_point"%string; "difftime"%string; "div"%string; 
    "div_t"%string; "errno"%string; "exit"%string; "fclose"%string; "feof"%string; 
    "ferror"%string; "fflush"%string; "fgetc"%string; "fgetpos"%string; "fgets"%string; 
    "fopen"%string; "fpos_t"%string; "fprintf"%string; "fputc"%string; "fputs"%string; 
    "frac_digits"%string; "fread"%string; "free"%string; "freopen"%string; "fscanf"%string; 
    "fseek"%string; "fsetpos"%string; "ftell"%string; "fwrite"%string; "getc"%string; 
    "getchar"%string; "getenv"%string; "gets"%string; "gmtime"%string; "grouping"%string; 
    "int_curr_symbol"%string; "int_frac_digits"%string; "jmp_buf"%string; "labs"%string; 
    "lconv"%string; "ldiv"%string; "ldiv_t"%string; "localeconv"%string; "localtime"%string; 
    "longjmp"%string; "malloc"%string; "mblen"%string; "mbstowcs"%string; "mbtowc"%string; 
    "mktime"%string; "mon_decimal_point"%string; "mon_grouping"%string; 
    "mon_thousands_sep"%string; "n_cs_precedes"%string; "n_sep_by_space"%string; 
    "n_sign_posn"%string; "negative_sign"%string; "offsetof"%string; "p_cs_precedes"%string; 
    "p_sep_by_space"%string; "p_sign_posn"%string; "perror"%string; "positive_sign"%string; 
    "printf"%string; "ptrdiff_t"%string; "putc"%string; "putchar"%string; "puts"%string; 
    "qsort"%string; "raise"%string; "rand"%string; "realloc"%string; "remove"%string; 
    "rename"%string; "rewind"%string; "scanf"%string; "setbuf"%string; "setjmp"%string; 
    "setlocale"%string; "setvbuf"%string; "sig_atomic_t"%string; "signal"%string; 
    "size_t"%string; "sprintf"%string; "srand"%string; "sscanf"%string; "stderr"%string; 
    "stdin"%string; "stdout"%string; "system"%string; "thousands_sep"%string; "time"%string; 
    "time_t"%string; "tm"%string; "tm_hour"%string; "tm_isdst"%string; "tm_mday"%string; 
    "tm_min"%string; "tm_mon"%string; "tm_sec"%string; "tm_wday"%string; "tm_yday"%string; 
    "tm_year"%string; "tmpfile"%string; "tmpnam"%string; "ungetc"%string; "va_arg"%string; 
    "va_end"%string; "va_list"%string; "va_start"%string; "vfprintf"%string; "vprintf"%string; 
    "vsprintf"%string; "wchar_t"%string; "wcstombs"%string; "wctomb"%string] ++ [None].

