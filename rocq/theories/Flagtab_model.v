(** The table of flags, src/flags.def 66–4443 (flags.def gives each flag's code the number of its
    place in the table: Makefile.am 328–329, Headers/flag_codes.h 17–24), and the flags each mode
    sets, src/context.c 1028–1385.  Kept of an entry: name, code, [isSpecial], [isIdem],
    [isGlobal], [isModeFlag] and [argtype] (src/flags.c 156–172); categories, descriptions and
    counters are left out. *)
From Verif Require Import Cbase.

Inductive argcode := ARG_NONE | ARG_NUMBER | ARG_CHAR | ARG_STRING | ARG_FILE | ARG_DIRECTORY | ARG_PATH | ARG_SPECIAL.
Record fflag := F { flag : cstr; fcode : Z; isSpecial : bool; isIdem : bool; isGlobal : bool; isModeFlag : bool; argtype : argcode }.

(** Headers/flag_codes.h 19–21. *)
Definition MODENAME_FLAG : Z := -3.
Definition SKIP_FLAG : Z := -2.
Definition INVALID_FLAG : Z := -1.

Definition FLG_NULL : Z := 0.
Definition FLG_NULLDEREF : Z := 1.
Definition FLG_NULLPASS : Z := 2.
Definition FLG_NULLRET : Z := 3.
Definition FLG_NULLSTATE : Z := 4.
Definition FLG_NULLASSIGN : Z := 5.
Definition FLG_NULLINIT : Z := 6.
Definition FLG_USEDEF : Z := 7.
Definition FLG_MUSTDEFINE : Z := 8.
Definition FLG_UNIONDEF : Z := 9.
Definition FLG_COMPDEF : Z := 10.
Definition FLG_FULLINITBLOCK : Z := 11.
Definition FLG_INITALLELEMENTS : Z := 12.
Definition FLG_INITSIZE : Z := 13.
Definition FLG_IMPOUTS : Z := 14.
Definition FLG_INCONDEFS : Z := 15.
Definition FLG_MATCHFIELDS : Z := 16.
Definition FLG_FCNDEREF : Z := 17.
Definition FLG_REALCOMPARE : Z := 18.
Definition FLG_REALRELATECOMPARE : Z := 19.
Definition FLG_UNSIGNEDCOMPARE : Z := 20.
Definition FLG_POINTERARITH : Z := 21.
Definition FLG_NULLPOINTERARITH : Z := 22.
Definition FLG_PTRNUMCOMPARE : Z := 23.
Definition FLG_STRICTOPS : Z := 24.
Definition FLG_BITWISEOPS : Z := 25.
Definition FLG_SHIFTNEGATIVE : Z := 26.
Definition FLG_SHIFTIMPLEMENTATION : Z := 27.
Definition FLG_SIZEOFTYPE : Z := 28.
Definition FLG_SIZEOFFORMALARRAY : Z := 29.
Definition FLG_FIXEDFORMALARRAY : Z := 30.
Definition FLG_INCOMPLETETYPE : Z := 31.
Definition FLG_FORMALARRAY : Z := 32.
Definition FLG_BOOLTYPE : Z := 33.
Definition FLG_BOOLFALSE : Z := 34.
Definition FLG_BOOLTRUE : Z := 35.
Definition FLG_LIKELYBOOL : Z := 36.
Definition FLG_BOOLCOMPARE : Z := 37.
Definition FLG_BOOLOPS : Z := 38.
Definition FLG_PTRNEGATE : Z := 39.
Definition FLG_PREDASSIGN : Z := 40.
Definition FLG_PREDBOOL : Z := 41.
Definition FLG_PREDBOOLINT : Z := 42.
Definition FLG_PREDBOOLPTR : Z := 43.
Definition FLG_PREDBOOLOTHERS : Z := 44.
Definition FLG_ABSTRACT : Z := 45.
Definition FLG_ABSTRACTCOMPARE : Z := 46.
Definition FLG_NUMABSTRACT : Z := 47.
Definition FLG_NUMABSTRACTCAST : Z := 48.
Definition FLG_NUMABSTRACTLIT : Z := 49.
Definition FLG_NUMABSTRACTINDEX : Z := 50.
Definition FLG_NUMABSTRACTPRINT : Z := 51.
Definition FLG_IMPABSTRACT : Z := 52.
Definition FLG_ACCESSMODULE : Z := 53.
Definition FLG_ACCESSFILE : Z := 54.
Definition FLG_ACCESSCZECH : Z := 55.
Definition FLG_ACCESSSLOVAK : Z := 56.
Definition FLG_ACCESSCZECHOSLOVAK : Z := 57.
Definition FLG_ACCESSALL : Z := 58.
Definition FLG_MUTREP : Z := 59.
Definition FLG_MUSTFREEFRESH : Z := 60.
Definition FLG_MUSTFREEONLY : Z := 61.
Definition FLG_MUSTFREE : Z := 62.
Definition FLG_USERELEASED : Z := 63.
Definition FLG_STRICTUSERELEASED : Z := 64.
Definition FLG_COMPDESTROY : Z := 65.
Definition FLG_STRICTDESTROY : Z := 66.
Definition FLG_DEPARRAYS : Z := 67.
Definition FLG_BRANCHSTATE : Z := 68.
Definition FLG_STRICTBRANCHSTATE : Z := 69.
Definition FLG_MEMCHECKS : Z := 70.
Definition FLG_COMPMEMPASS : Z := 71.
Definition FLG_RETSTACK : Z := 72.
Definition FLG_MEMTRANS : Z := 73.
Definition FLG_DEPENDENTTRANS : Z := 74.
Definition FLG_NEWREFTRANS : Z := 75.
Definition FLG_ONLYTRANS : Z := 76.
Definition FLG_ONLYUNQGLOBALTRANS : Z := 77.
Definition FLG_OWNEDTRANS : Z := 78.
Definition FLG_FRESHTRANS : Z := 79.
Definition FLG_SHAREDTRANS : Z := 80.
Definition FLG_TEMPTRANS : Z := 81.
Definition FLG_KEPTTRANS : Z := 82.
Definition FLG_KEEPTRANS : Z := 83.
Definition FLG_IMMEDIATETRANS : Z := 84.
Definition FLG_REFCOUNTTRANS : Z := 85.
Definition FLG_STATICTRANS : Z := 86.
Definition FLG_UNKNOWNTRANS : Z := 87.
Definition FLG_STATICINITTRANS : Z := 88.
Definition FLG_UNKNOWNINITTRANS : Z := 89.
Definition FLG_READONLYTRANS : Z := 90.
Definition FLG_PASSUNKNOWN : Z := 91.
Definition FLG_READONLYSTRINGS : Z := 92.
Definition FLG_MEMIMPLICIT : Z := 93.
Definition FLG_PARAMIMPTEMP : Z := 94.
Definition FLG_ALLIMPONLY : Z := 95.
Definition FLG_CODEIMPONLY : Z := 96.
Definition FLG_SPECALLIMPONLY : Z := 97.
Definition FLG_GLOBIMPONLY : Z := 98.
Definition FLG_RETIMPONLY : Z := 99.
Definition FLG_STRUCTIMPONLY : Z := 100.
Definition FLG_SPECGLOBIMPONLY : Z := 101.
Definition FLG_SPECRETIMPONLY : Z := 102.
Definition FLG_SPECSTRUCTIMPONLY : Z := 103.
Definition FLG_ALIASUNIQUE : Z := 104.
Definition FLG_MAYALIASUNIQUE : Z := 105.
Definition FLG_MUSTNOTALIAS : Z := 106.
Definition FLG_RETALIAS : Z := 107.
Definition FLG_GLOBALIAS : Z := 108.
Definition FLG_CHECKSTRICTGLOBALIAS : Z := 109.
Definition FLG_CHECKEDGLOBALIAS : Z := 110.
Definition FLG_CHECKMODGLOBALIAS : Z := 111.
Definition FLG_UNCHECKEDGLOBALIAS : Z := 112.
Definition FLG_EXPOSETRANS : Z := 113.
Definition FLG_OBSERVERTRANS : Z := 114.
Definition FLG_REPEXPOSE : Z := 115.
Definition FLG_RETEXPOSE : Z := 116.
Definition FLG_ASSIGNEXPOSE : Z := 117.
Definition FLG_CASTEXPOSE : Z := 118.
Definition FLG_REDUNDANTSHAREQUAL : Z := 119.
Definition FLG_MISPLACEDSHAREQUAL : Z := 120.
Definition FLG_MODIFIES : Z := 121.
Definition FLG_MUSTMOD : Z := 122.
Definition FLG_MODOBSERVER : Z := 123.
Definition FLG_MODOBSERVERUNCON : Z := 124.
Definition FLG_MODINTERNALSTRICT : Z := 125.
Definition FLG_MODFILESYSTEM : Z := 126.
Definition FLG_MODUNSPEC : Z := 127.
Definition FLG_MODNOMODS : Z := 128.
Definition FLG_MODUNCON : Z := 129.
Definition FLG_MODUNCONNOMODS : Z := 130.
Definition FLG_GLOBALSIMPMODIFIESNOTHING : Z := 131.
Definition FLG_MODIFIESIMPNOGLOBALS : Z := 132.
Definition FLG_GLOBSTATE : Z := 133.
Definition FLG_GLOBALS : Z := 134.
Definition FLG_USEALLGLOBS : Z := 135.
Definition FLG_INTERNALGLOBS : Z := 136.
Definition FLG_INTERNALGLOBSNOGLOBS : Z := 137.
Definition FLG_WARNMISSINGGLOBALS : Z := 138.
Definition FLG_WARNMISSINGGLOBALSNOGLOBS : Z := 139.
Definition FLG_GLOBUNSPEC : Z := 140.
Definition FLG_ALLGLOBALS : Z := 141.
Definition FLG_CHECKSTRICTGLOBALS : Z := 142.
Definition FLG_IMPCHECKEDSPECGLOBALS : Z := 143.
Definition FLG_IMPCHECKMODSPECGLOBALS : Z := 144.
Definition FLG_IMPCHECKEDSTRICTSPECGLOBALS : Z := 145.
Definition FLG_IMPCHECKEDGLOBALS : Z := 146.
Definition FLG_IMPCHECKMODGLOBALS : Z := 147.
Definition FLG_IMPCHECKEDSTRICTGLOBALS : Z := 148.
Definition FLG_IMPCHECKEDSTATICS : Z := 149.
Definition FLG_IMPCHECKMODSTATICS : Z := 150.
Definition FLG_IMPCHECKMODINTERNALS : Z := 151.
Definition FLG_IMPCHECKEDSTRICTSTATICS : Z := 152.
Definition FLG_MODGLOBS : Z := 153.
Definition FLG_MODGLOBSUNSPEC : Z := 154.
Definition FLG_MODSTRICTGLOBSUNSPEC : Z := 155.
Definition FLG_MODGLOBSUNCHECKED : Z := 156.
Definition FLG_NORETURN : Z := 157.
Definition FLG_EMPTYRETURN : Z := 158.
Definition FLG_ALWAYSEXITS : Z := 159.
Definition FLG_LOOPEXEC : Z := 160.
Definition FLG_FORLOOPEXEC : Z := 161.
Definition FLG_WHILELOOPEXEC : Z := 162.
Definition FLG_ITERLOOPEXEC : Z := 163.
Definition FLG_OBVIOUSLOOPEXEC : Z := 164.
Definition FLG_EVALORDER : Z := 165.
Definition FLG_EVALORDERUNCON : Z := 166.
Definition FLG_INFLOOPS : Z := 167.
Definition FLG_INFLOOPSUNCON : Z := 168.
Definition FLG_CASEBREAK : Z := 169.
Definition FLG_MISSCASE : Z := 170.
Definition FLG_FIRSTCASE : Z := 171.
Definition FLG_DUPLICATECASES : Z := 172.
Definition FLG_DEEPBREAK : Z := 173.
Definition FLG_LOOPLOOPBREAK : Z := 174.
Definition FLG_SWITCHLOOPBREAK : Z := 175.
Definition FLG_LOOPSWITCHBREAK : Z := 176.
Definition FLG_SWITCHSWITCHBREAK : Z := 177.
Definition FLG_LOOPLOOPCONTINUE : Z := 178.
Definition FLG_WHILEEMPTY : Z := 179.
Definition FLG_WHILEBLOCK : Z := 180.
Definition FLG_FOREMPTY : Z := 181.
Definition FLG_FORBLOCK : Z := 182.
Definition FLG_IFEMPTY : Z := 183.
Definition FLG_IFBLOCK : Z := 184.
Definition FLG_ALLEMPTY : Z := 185.
Definition FLG_ALLBLOCK : Z := 186.
Definition FLG_ELSEIFCOMPLETE : Z := 187.
Definition FLG_UNREACHABLE : Z := 188.
Definition FLG_NOEFFECT : Z := 189.
Definition FLG_NOEFFECTUNCON : Z := 190.
Definition FLG_RETVAL : Z := 191.
Definition FLG_RETVALOTHER : Z := 192.
Definition FLG_RETVALBOOL : Z := 193.
Definition FLG_RETVALINT : Z := 194.
Definition FLG_NULLTERMINATED : Z := 195.
Definition FLG_BOUNDS : Z := 196.
Definition FLG_LIKELYBOUNDS : Z := 197.
Definition FLG_LIKELYBOUNDSREAD : Z := 198.
Definition FLG_LIKELYBOUNDSWRITE : Z := 199.
Definition FLG_BOUNDSREAD : Z := 200.
Definition FLG_BOUNDSWRITE : Z := 201.
Definition FLG_FUNCTIONPOST : Z := 202.
Definition FLG_REDUNDANTCONSTRAINTS : Z := 203.
Definition FLG_CHECKPOST : Z := 204.
Definition FLG_IMPBOUNDSCONSTRAINTS : Z := 205.
Definition FLG_ORCONSTRAINT : Z := 206.
Definition FLG_PARENCONSTRAINT : Z := 207.
Definition FLG_BOUNDSCOMPACTERRORMESSAGES : Z := 208.
Definition FLG_CONSTRAINTLOCATION : Z := 209.
Definition FLG_ALLOCMISMATCH : Z := 210.
Definition FLG_MTSFILE : Z := 211.
Definition FLG_STATETRANSFER : Z := 212.
Definition FLG_STATEMERGE : Z := 213.
Definition FLG_MACROREDEF : Z := 214.
Definition FLG_MACROUNDEF : Z := 215.
Definition FLG_MACROCONSTDECL : Z := 216.
Definition FLG_MACROCONSTDIST : Z := 217.
Definition FLG_MACROSTMT : Z := 218.
Definition FLG_MACROEMPTY : Z := 219.
Definition FLG_MACROPARAMS : Z := 220.
Definition FLG_MACRORETURN : Z := 221.
Definition FLG_MACROASSIGN : Z := 222.
Definition FLG_MACROPARENS : Z := 223.
Definition FLG_MACRODECL : Z := 224.
Definition FLG_MACROFCNDECL : Z := 225.
Definition FLG_SEFPARAMS : Z := 226.
Definition FLG_SEFUNSPEC : Z := 227.
Definition FLG_CONSTMACROS : Z := 228.
Definition FLG_FCNMACROS : Z := 229.
Definition FLG_ALLMACROS : Z := 230.
Definition FLG_LIBMACROS : Z := 231.
Definition FLG_SPECMACROS : Z := 232.
Definition FLG_MACROMATCHNAME : Z := 233.
Definition FLG_MACRONEXTLINE : Z := 234.
Definition FLG_ITERBALANCE : Z := 235.
Definition FLG_ITERYIELD : Z := 236.
Definition FLG_HASYIELD : Z := 237.
Definition FLG_NAMECHECKS : Z := 238.
Definition FLG_CZECH : Z := 239.
Definition FLG_CZECHFUNCTIONS : Z := 240.
Definition FLG_CZECHVARS : Z := 241.
Definition FLG_CZECHMACROS : Z := 242.
Definition FLG_CZECHCONSTANTS : Z := 243.
Definition FLG_CZECHTYPES : Z := 244.
Definition FLG_SLOVAK : Z := 245.
Definition FLG_SLOVAKFUNCTIONS : Z := 246.
Definition FLG_SLOVAKMACROS : Z := 247.
Definition FLG_SLOVAKVARS : Z := 248.
Definition FLG_SLOVAKCONSTANTS : Z := 249.
Definition FLG_SLOVAKTYPES : Z := 250.
Definition FLG_CZECHOSLOVAK : Z := 251.
Definition FLG_CZECHOSLOVAKFUNCTIONS : Z := 252.
Definition FLG_CZECHOSLOVAKMACROS : Z := 253.
Definition FLG_CZECHOSLOVAKVARS : Z := 254.
Definition FLG_CZECHOSLOVAKCONSTANTS : Z := 255.
Definition FLG_CZECHOSLOVAKTYPES : Z := 256.
Definition FLG_MACROVARPREFIX : Z := 257.
Definition FLG_MACROVARPREFIXEXCLUDE : Z := 258.
Definition FLG_TAGPREFIX : Z := 259.
Definition FLG_TAGPREFIXEXCLUDE : Z := 260.
Definition FLG_ENUMPREFIX : Z := 261.
Definition FLG_ENUMPREFIXEXCLUDE : Z := 262.
Definition FLG_FILESTATICPREFIX : Z := 263.
Definition FLG_FILESTATICPREFIXEXCLUDE : Z := 264.
Definition FLG_GLOBPREFIX : Z := 265.
Definition FLG_GLOBPREFIXEXCLUDE : Z := 266.
Definition FLG_TYPEPREFIX : Z := 267.
Definition FLG_TYPEPREFIXEXCLUDE : Z := 268.
Definition FLG_EXTERNALPREFIX : Z := 269.
Definition FLG_EXTERNALPREFIXEXCLUDE : Z := 270.
Definition FLG_LOCALPREFIX : Z := 271.
Definition FLG_LOCALPREFIXEXCLUDE : Z := 272.
Definition FLG_UNCHECKEDMACROPREFIX : Z := 273.
Definition FLG_UNCHECKEDMACROPREFIXEXCLUDE : Z := 274.
Definition FLG_CONSTPREFIX : Z := 275.
Definition FLG_CONSTPREFIXEXCLUDE : Z := 276.
Definition FLG_ITERPREFIX : Z := 277.
Definition FLG_ITERPREFIXEXCLUDE : Z := 278.
Definition FLG_DECLPARAMPREFIX : Z := 279.
Definition FLG_ISORESERVED : Z := 280.
Definition FLG_CPPNAMES : Z := 281.
Definition FLG_ISORESERVEDLOCAL : Z := 282.
Definition FLG_DISTINCTEXTERNALNAMES : Z := 283.
Definition FLG_EXTERNALNAMELEN : Z := 284.
Definition FLG_EXTERNALNAMECASEINSENSITIVE : Z := 285.
Definition FLG_DISTINCTINTERNALNAMES : Z := 286.
Definition FLG_INTERNALNAMELEN : Z := 287.
Definition FLG_INTERNALNAMECASEINSENSITIVE : Z := 288.
Definition FLG_INTERNALNAMELOOKALIKE : Z := 289.
Definition FLG_DECLPARAMNAME : Z := 290.
Definition FLG_DECLPARAMMATCH : Z := 291.
Definition FLG_DECLPARAMPREFIXEXCLUDE : Z := 292.
Definition FLG_TOPUNUSED : Z := 293.
Definition FLG_EXPORTLOCAL : Z := 294.
Definition FLG_EXPORTHEADER : Z := 295.
Definition FLG_EXPORTHEADERVAR : Z := 296.
Definition FLG_FIELDUNUSED : Z := 297.
Definition FLG_ENUMMEMUNUSED : Z := 298.
Definition FLG_CONSTUNUSED : Z := 299.
Definition FLG_FUNCUNUSED : Z := 300.
Definition FLG_PARAMUNUSED : Z := 301.
Definition FLG_TYPEUNUSED : Z := 302.
Definition FLG_VARUNUSED : Z := 303.
Definition FLG_UNUSEDSPECIAL : Z := 304.
Definition FLG_DECLUNDEF : Z := 305.
Definition FLG_SPECUNDEF : Z := 306.
Definition FLG_SPECUNDECL : Z := 307.
Definition FLG_NEWDECL : Z := 308.
Definition FLG_NEEDSPEC : Z := 309.
Definition FLG_NOLIB : Z := 310.
Definition FLG_ANSILIB : Z := 311.
Definition FLG_STRICTLIB : Z := 312.
Definition FLG_UNIXLIB : Z := 313.
Definition FLG_UNIXSTRICTLIB : Z := 314.
Definition FLG_POSIXLIB : Z := 315.
Definition FLG_POSIXSTRICTLIB : Z := 316.
Definition FLG_WHICHLIB : Z := 317.
Definition FLG_WARNPOSIX : Z := 318.
Definition FLG_WARNUNIXLIB : Z := 319.
Definition FLG_USEVARARGS : Z := 320.
Definition FLG_CASEINSENSITIVEFILENAMES : Z := 321.
Definition FLG_DUMP : Z := 322.
Definition FLG_MERGE : Z := 323.
Definition FLG_SINGLEINCLUDE : Z := 324.
Definition FLG_NEVERINCLUDE : Z := 325.
Definition FLG_SKIPSYSHEADERS : Z := 326.
Definition FLG_GNUEXTENSIONS : Z := 327.
Definition FLG_NOPARAMS : Z := 328.
Definition FLG_OLDSTYLE : Z := 329.
Definition FLG_MAINTYPE : Z := 330.
Definition FLG_EXITARG : Z := 331.
Definition FLG_SHADOW : Z := 332.
Definition FLG_INCONDEFSLIB : Z := 333.
Definition FLG_WARNOVERLOAD : Z := 334.
Definition FLG_NESTEDEXTERN : Z := 335.
Definition FLG_REDECL : Z := 336.
Definition FLG_REDEF : Z := 337.
Definition FLG_IMPTYPE : Z := 338.
Definition FLG_TMPDIR : Z := 339.
Definition FLG_LARCHPATH : Z := 340.
Definition FLG_LCLIMPORTDIR : Z := 341.
Definition FLG_SYSTEMDIRS : Z := 342.
Definition FLG_SKIPISOHEADERS : Z := 343.
Definition FLG_SKIPPOSIXHEADERS : Z := 344.
Definition FLG_SYSTEMDIRERRORS : Z := 345.
Definition FLG_SYSTEMDIREXPAND : Z := 346.
Definition FLG_INCLUDEPATH : Z := 347.
Definition FLG_SPECPATH : Z := 348.
Definition FLG_EXPORTANY : Z := 349.
Definition FLG_EXPORTFCN : Z := 350.
Definition FLG_EXPORTMACRO : Z := 351.
Definition FLG_EXPORTTYPE : Z := 352.
Definition FLG_EXPORTVAR : Z := 353.
Definition FLG_EXPORTCONST : Z := 354.
Definition FLG_EXPORTITER : Z := 355.
Definition FLG_LINELEN : Z := 356.
Definition FLG_INDENTSPACES : Z := 357.
Definition FLG_LOCINDENTSPACES : Z := 358.
Definition FLG_SHOWDEEPHISTORY : Z := 359.
Definition FLG_SHOWCOL : Z := 360.
Definition FLG_SHOWLOADLOC : Z := 361.
Definition FLG_CSV : Z := 362.
Definition FLG_CSVOVERWRITE : Z := 363.
Definition FLG_PARENFILEFORMAT : Z := 364.
Definition FLG_HTMLFILEFORMAT : Z := 365.
Definition FLG_SHOWFUNC : Z := 366.
Definition FLG_SHOWALLCONJS : Z := 367.
Definition FLG_IMPCONJ : Z := 368.
Definition FLG_EXPECT : Z := 369.
Definition FLG_LCLEXPECT : Z := 370.
Definition FLG_PARTIAL : Z := 371.
Definition FLG_DOLH : Z := 372.
Definition FLG_DOLCS : Z := 373.
Definition FLG_WARNFLAGS : Z := 374.
Definition FLG_WARNRC : Z := 375.
Definition FLG_BADFLAG : Z := 376.
Definition FLG_FILEEXTENSIONS : Z := 377.
Definition FLG_HELP : Z := 378.
Definition FLG_OPTF : Z := 379.
Definition FLG_INIT : Z := 380.
Definition FLG_NOF : Z := 381.
Definition FLG_COMMENTCHAR : Z := 382.
Definition FLG_CONTROLNESTDEPTH : Z := 383.
Definition FLG_STRINGLITERALLEN : Z := 384.
Definition FLG_NUMSTRUCTFIELDS : Z := 385.
Definition FLG_NUMENUMMEMBERS : Z := 386.
Definition FLG_INCLUDENEST : Z := 387.
Definition FLG_ANSI89LIMITS : Z := 388.
Definition FLG_ISO99LIMITS : Z := 389.
Definition FLG_DEFINE : Z := 390.
Definition FLG_UNDEFINE : Z := 391.
Definition FLG_UNRECOGDIRECTIVE : Z := 392.
Definition FLG_SUPCOUNTS : Z := 393.
Definition FLG_LIMIT : Z := 394.
Definition FLG_SYNTAX : Z := 395.
Definition FLG_TRYTORECOVER : Z := 396.
Definition FLG_PREPROC : Z := 397.
Definition FLG_TYPE : Z := 398.
Definition FLG_STRINGLITTOOLONG : Z := 399.
Definition FLG_STRINGLITNOROOMFINALNULL : Z := 400.
Definition FLG_STRINGLITNOROOM : Z := 401.
Definition FLG_STRINGLITSMALLER : Z := 402.
Definition FLG_ENUMMEMBERS : Z := 403.
Definition FLG_FORMATTYPE : Z := 404.
Definition FLG_FORMATCONST : Z := 405.
Definition FLG_FORMATCODE : Z := 406.
Definition FLG_FORWARDDECL : Z := 407.
Definition FLG_ABSTVOIDP : Z := 408.
Definition FLG_CASTFCNPTR : Z := 409.
Definition FLG_CHARINDEX : Z := 410.
Definition FLG_ENUMINDEX : Z := 411.
Definition FLG_BOOLINT : Z := 412.
Definition FLG_CHARINT : Z := 413.
Definition FLG_ENUMINT : Z := 414.
Definition FLG_LONGINT : Z := 415.
Definition FLG_SHORTINT : Z := 416.
Definition FLG_FLOATDOUBLE : Z := 417.
Definition FLG_IGNOREQUALS : Z := 418.
Definition FLG_DUPLICATEQUALS : Z := 419.
Definition FLG_IGNORESIGNS : Z := 420.
Definition FLG_NUMLITERAL : Z := 421.
Definition FLG_CHARINTLITERAL : Z := 422.
Definition FLG_RELAXQUALS : Z := 423.
Definition FLG_RELAXTYPES : Z := 424.
Definition FLG_CHARUNSIGNEDCHAR : Z := 425.
Definition FLG_MATCHANYINTEGRAL : Z := 426.
Definition FLG_LONGUNSIGNEDINTEGRAL : Z := 427.
Definition FLG_LONGINTEGRAL : Z := 428.
Definition FLG_LONGUNSIGNEDUNSIGNEDINTEGRAL : Z := 429.
Definition FLG_LONGSIGNEDINTEGRAL : Z := 430.
Definition FLG_ZEROPTR : Z := 431.
Definition FLG_ZEROBOOL : Z := 432.
Definition FLG_REPEATUNRECOG : Z := 433.
Definition FLG_SYSTEMUNRECOG : Z := 434.
Definition FLG_UNRECOG : Z := 435.
Definition FLG_ANNOTATIONERROR : Z := 436.
Definition FLG_COMMENTERROR : Z := 437.
Definition FLG_WARNUSE : Z := 438.
Definition FLG_BUFFEROVERFLOW : Z := 439.
Definition FLG_BUFFEROVERFLOWHIGH : Z := 440.
Definition FLG_IMPLEMENTATIONOPTIONAL : Z := 441.
Definition FLG_LEGACY : Z := 442.
Definition FLG_MULTITHREADED : Z := 443.
Definition FLG_PORTABILITY : Z := 444.
Definition FLG_SUPERUSER : Z := 445.
Definition FLG_TOCTOU : Z := 446.
Definition FLG_UNIXSTANDARD : Z := 447.
Definition FLG_ITS4MOSTRISKY : Z := 448.
Definition FLG_ITS4VERYRISKY : Z := 449.
Definition FLG_ITS4RISKY : Z := 450.
Definition FLG_ITS4MODERATERISK : Z := 451.
Definition FLG_ITS4LOWRISK : Z := 452.
Definition FLG_NOCOMMENTS : Z := 453.
Definition FLG_NOACCESS : Z := 454.
Definition FLG_UNRECOGCOMMENTS : Z := 455.
Definition FLG_UNRECOGFLAGCOMMENTS : Z := 456.
Definition FLG_TMPCOMMENTS : Z := 457.
Definition FLG_LINTCOMMENTS : Z := 458.
Definition FLG_WARNLINTCOMMENTS : Z := 459.
Definition FLG_CONTINUECOMMENT : Z := 460.
Definition FLG_SLASHSLASHCOMMENT : Z := 461.
Definition FLG_NESTCOMMENT : Z := 462.
Definition FLG_QUIET : Z := 463.
Definition FLG_MESSAGESTREAMSTDOUT : Z := 464.
Definition FLG_MESSAGESTREAMSTDERR : Z := 465.
Definition FLG_MESSAGESTREAM : Z := 466.
Definition FLG_WARNINGSTREAMSTDOUT : Z := 467.
Definition FLG_WARNINGSTREAMSTDERR : Z := 468.
Definition FLG_WARNINGSTREAM : Z := 469.
Definition FLG_ERRORSTREAMSTDOUT : Z := 470.
Definition FLG_ERRORSTREAMSTDERR : Z := 471.
Definition FLG_ERRORSTREAM : Z := 472.
Definition FLG_STREAMOVERWRITE : Z := 473.
Definition FLG_SHOWSUMMARY : Z := 474.
Definition FLG_SHOWSCAN : Z := 475.
Definition FLG_WARNSYSFILES : Z := 476.
Definition FLG_STATS : Z := 477.
Definition FLG_TIMEDIST : Z := 478.
Definition FLG_SHOWUSES : Z := 479.
Definition FLG_HINTS : Z := 480.
Definition FLG_FORCEHINTS : Z := 481.
Definition FLG_BUGSLIMIT : Z := 482.
Definition FLG_DEBUGFUNCTIONCONSTRAINT : Z := 483.
Definition FLG_GRAMMAR : Z := 484.
Definition FLG_KEEP : Z := 485.
Definition FLG_NOPP : Z := 486.
Definition FLG_SHOWSOURCELOC : Z := 487.
(** Headers/flag_codes.h 25–31. *)
Definition NUMFLAGS : Z := 488.
Definition NUMVALUEFLAGS : Z := 15.
Definition NUMSTRINGFLAGS : Z := 28.

(** src/flags.def; the lines of each entry beside it. *)
Definition flag_table : list fflag := [
  F (lit "null") FLG_NULL true false false false ARG_NONE; (* 72–80 *)
  F (lit "nullderef") FLG_NULLDEREF false false false true ARG_NONE; (* 81–92 *)
  F (lit "nullpass") FLG_NULLPASS false false false true ARG_NONE; (* 93–103 *)
  F (lit "nullret") FLG_NULLRET false false false true ARG_NONE; (* 104–114 *)
  F (lit "nullstate") FLG_NULLSTATE false false false true ARG_NONE; (* 115–123 *)
  F (lit "nullassign") FLG_NULLASSIGN false false false true ARG_NONE; (* 124–133 *)
  F (lit "nullinit") FLG_NULLINIT false false false false ARG_NONE; (* 134–143 *)
  F (lit "usedef") FLG_USEDEF false false false true ARG_NONE; (* 149–156 *)
  F (lit "mustdefine") FLG_MUSTDEFINE false false false true ARG_NONE; (* 157–164 *)
  F (lit "uniondef") FLG_UNIONDEF false false false true ARG_NONE; (* 165–173 *)
  F (lit "compdef") FLG_COMPDEF false false false true ARG_NONE; (* 174–183 *)
  F (lit "fullinitblock") FLG_FULLINITBLOCK false false false false ARG_NONE; (* 184–191 *)
  F (lit "initallelements") FLG_INITALLELEMENTS false false false false ARG_NONE; (* 192–199 *)
  F (lit "initsize") FLG_INITSIZE false false false false ARG_NONE; (* 200–207 *)
  F (lit "impouts") FLG_IMPOUTS false false false true ARG_NONE; (* 209–215 *)
  F (lit "incondefs") FLG_INCONDEFS false false false true ARG_NONE; (* 221–228 *)
  F (lit "matchfields") FLG_MATCHFIELDS false false false true ARG_NONE; (* 229–236 *)
  F (lit "fcnderef") FLG_FCNDEREF false false false true ARG_NONE; (* 237–246 *)
  F (lit "realcompare") FLG_REALCOMPARE false false false true ARG_NONE; (* 247–259 *)
  F (lit "realrelatecompare") FLG_REALRELATECOMPARE false false false true ARG_NONE; (* 260–272 *)
  F (lit "unsignedcompare") FLG_UNSIGNEDCOMPARE false false false true ARG_NONE; (* 273–280 *)
  F (lit "ptrarith") FLG_POINTERARITH false false false true ARG_NONE; (* 281–287 *)
  F (lit "nullptrarith") FLG_NULLPOINTERARITH false false false true ARG_NONE; (* 288–294 *)
  F (lit "ptrcompare") FLG_PTRNUMCOMPARE false false false true ARG_NONE; (* 295–301 *)
  F (lit "strictops") FLG_STRICTOPS false false false true ARG_NONE; (* 302–308 *)
  F (lit "bitwisesigned") FLG_BITWISEOPS false false false true ARG_NONE; (* 309–317 *)
  F (lit "shiftnegative") FLG_SHIFTNEGATIVE false false false true ARG_NONE; (* 318–325 *)
  F (lit "shiftimplementation") FLG_SHIFTIMPLEMENTATION false false false true ARG_NONE; (* 326–333 *)
  F (lit "sizeoftype") FLG_SIZEOFTYPE false false false true ARG_NONE; (* 334–342 *)
  F (lit "sizeofformalarray") FLG_SIZEOFFORMALARRAY false false false false ARG_NONE; (* 343–352 *)
  F (lit "fixedformalarray") FLG_FIXEDFORMALARRAY false false false false ARG_NONE; (* 353–362 *)
  F (lit "incompletetype") FLG_INCOMPLETETYPE false false false false ARG_NONE; (* 363–370 *)
  F (lit "formalarray") FLG_FORMALARRAY false false false false ARG_NONE; (* 371–379 *)
  F (lit "booltype") FLG_BOOLTYPE false false false false ARG_STRING; (* 386–392 *)
  F (lit "boolfalse") FLG_BOOLFALSE false false false false ARG_STRING; (* 393–399 *)
  F (lit "booltrue") FLG_BOOLTRUE false false false false ARG_STRING; (* 400–406 *)
  F (lit "likelybool") FLG_LIKELYBOOL false false false false ARG_NONE; (* 407–416 *)
  F (lit "boolcompare") FLG_BOOLCOMPARE false false false true ARG_NONE; (* 418–428 *)
  F (lit "boolops") FLG_BOOLOPS false false false true ARG_NONE; (* 429–437 *)
  F (lit "ptrnegate") FLG_PTRNEGATE false false false true ARG_NONE; (* 438–444 *)
  F (lit "predassign") FLG_PREDASSIGN false false false false ARG_NONE; (* 445–455 *)
  F (lit "predbool") FLG_PREDBOOL true false false false ARG_NONE; (* 456–463 *)
  F (lit "predboolint") FLG_PREDBOOLINT false false false true ARG_NONE; (* 464–470 *)
  F (lit "predboolptr") FLG_PREDBOOLPTR false false false true ARG_NONE; (* 471–477 *)
  F (lit "predboolothers") FLG_PREDBOOLOTHERS false false false true ARG_NONE; (* 478–484 *)
  F (lit "abstract") FLG_ABSTRACT false false false false ARG_NONE; (* 490–497 *)
  F (lit "abstractcompare") FLG_ABSTRACTCOMPARE false false false true ARG_NONE; (* 498–505 *)
  F (lit "numabstract") FLG_NUMABSTRACT false false false false ARG_NONE; (* 507–514 *)
  F (lit "numabstractcast") FLG_NUMABSTRACTCAST false false false true ARG_NONE; (* 515–522 *)
  F (lit "numabstractlit") FLG_NUMABSTRACTLIT false false false true ARG_NONE; (* 523–530 *)
  F (lit "numabstractindex") FLG_NUMABSTRACTINDEX false false false true ARG_NONE; (* 531–538 *)
  F (lit "numabstractprint") FLG_NUMABSTRACTPRINT false false false true ARG_NONE; (* 539–546 *)
  F (lit "impabstract") FLG_IMPABSTRACT false false false false ARG_NONE; (* 547–554 *)
  F (lit "accessmodule") FLG_ACCESSMODULE false false false false ARG_NONE; (* 558–566 *)
  F (lit "accessfile") FLG_ACCESSFILE false false false false ARG_NONE; (* 567–575 *)
  F (lit "accessczech") FLG_ACCESSCZECH false false false false ARG_NONE; (* 576–584 *)
  F (lit "accessslovak") FLG_ACCESSSLOVAK false false false false ARG_NONE; (* 585–593 *)
  F (lit "accessczechoslovak") FLG_ACCESSCZECHOSLOVAK false false false false ARG_NONE; (* 594–602 *)
  F (lit "accessall") FLG_ACCESSALL true false false false ARG_NONE; (* 603–610 *)
  F (lit "mutrep") FLG_MUTREP false false false true ARG_NONE; (* 613–623 *)
  F (lit "mustfreefresh") FLG_MUSTFREEFRESH false false false true ARG_NONE; (* 631–639 *)
  F (lit "mustfreeonly") FLG_MUSTFREEONLY false false false true ARG_NONE; (* 640–648 *)
  F (lit "mustfree") FLG_MUSTFREE true false false false ARG_NONE; (* 649–656 *)
  F (lit "usereleased") FLG_USERELEASED false false false true ARG_NONE; (* 657–665 *)
  F (lit "strictusereleased") FLG_STRICTUSERELEASED false false false true ARG_NONE; (* 666–674 *)
  F (lit "compdestroy") FLG_COMPDESTROY false false false true ARG_NONE; (* 675–687 *)
  F (lit "strictdestroy") FLG_STRICTDESTROY false false false true ARG_NONE; (* 688–696 *)
  F (lit "deparrays") FLG_DEPARRAYS false false false true ARG_NONE; (* 697–707 *)
  F (lit "branchstate") FLG_BRANCHSTATE false false false true ARG_NONE; (* 708–717 *)
  F (lit "strictbranchstate") FLG_STRICTBRANCHSTATE false false false true ARG_NONE; (* 718–728 *)
  F (lit "memchecks") FLG_MEMCHECKS true false false false ARG_NONE; (* 729–736 *)
  F (lit "compmempass") FLG_COMPMEMPASS false false false true ARG_NONE; (* 737–745 *)
  F (lit "stackref") FLG_RETSTACK false false false true ARG_NONE; (* 746–755 *)
  F (lit "memtrans") FLG_MEMTRANS true false false false ARG_NONE; (* 757–764 *)
  F (lit "dependenttrans") FLG_DEPENDENTTRANS false false false true ARG_NONE; (* 765–772 *)
  F (lit "newreftrans") FLG_NEWREFTRANS false false false true ARG_NONE; (* 773–780 *)
  F (lit "onlytrans") FLG_ONLYTRANS false false false true ARG_NONE; (* 781–791 *)
  F (lit "onlyunqglobaltrans") FLG_ONLYUNQGLOBALTRANS false false false true ARG_NONE; (* 792–803 *)
  F (lit "ownedtrans") FLG_OWNEDTRANS false false false true ARG_NONE; (* 804–814 *)
  F (lit "freshtrans") FLG_FRESHTRANS false false false true ARG_NONE; (* 815–826 *)
  F (lit "sharedtrans") FLG_SHAREDTRANS false false false true ARG_NONE; (* 827–835 *)
  F (lit "temptrans") FLG_TEMPTRANS false false false true ARG_NONE; (* 836–845 *)
  F (lit "kepttrans") FLG_KEPTTRANS false false false true ARG_NONE; (* 846–855 *)
  F (lit "keeptrans") FLG_KEEPTRANS false false false true ARG_NONE; (* 856–864 *)
  F (lit "immediatetrans") FLG_IMMEDIATETRANS false false false true ARG_NONE; (* 865–873 *)
  F (lit "refcounttrans") FLG_REFCOUNTTRANS false false false true ARG_NONE; (* 874–882 *)
  F (lit "statictrans") FLG_STATICTRANS false false false true ARG_NONE; (* 883–890 *)
  F (lit "unqualifiedtrans") FLG_UNKNOWNTRANS false false false true ARG_NONE; (* 891–898 *)
  F (lit "staticinittrans") FLG_STATICINITTRANS false false false true ARG_NONE; (* 899–906 *)
  F (lit "unqualifiedinittrans") FLG_UNKNOWNINITTRANS false false false true ARG_NONE; (* 907–914 *)
  F (lit "readonlytrans") FLG_READONLYTRANS false false false true ARG_NONE; (* 915–922 *)
  F (lit "passunknown") FLG_PASSUNKNOWN false false false true ARG_NONE; (* 923–929 *)
  F (lit "readonlystrings") FLG_READONLYSTRINGS false false false true ARG_NONE; (* 933–941 *)
  F (lit "memimp") FLG_MEMIMPLICIT false false false true ARG_NONE; (* 942–948 *)
  F (lit "paramimptemp") FLG_PARAMIMPTEMP false false false false ARG_NONE; (* 949–955 *)
  F (lit "allimponly") FLG_ALLIMPONLY true false false false ARG_NONE; (* 956–963 *)
  F (lit "codeimponly") FLG_CODEIMPONLY true false false false ARG_NONE; (* 964–970 *)
  F (lit "specimponly") FLG_SPECALLIMPONLY true false false false ARG_NONE; (* 971–977 *)
  F (lit "globimponly") FLG_GLOBIMPONLY false false false false ARG_NONE; (* 978–984 *)
  F (lit "retimponly") FLG_RETIMPONLY false false false false ARG_NONE; (* 985–991 *)
  F (lit "structimponly") FLG_STRUCTIMPONLY false false false false ARG_NONE; (* 992–998 *)
  F (lit "specglobimponly") FLG_SPECGLOBIMPONLY false false false false ARG_NONE; (* 999–1005 *)
  F (lit "specretimponly") FLG_SPECRETIMPONLY false false false false ARG_NONE; (* 1006–1012 *)
  F (lit "specstructimponly") FLG_SPECSTRUCTIMPONLY false false false false ARG_NONE; (* 1013–1019 *)
  F (lit "aliasunique") FLG_ALIASUNIQUE false false false true ARG_NONE; (* 1031–1038 *)
  F (lit "mayaliasunique") FLG_MAYALIASUNIQUE false false false true ARG_NONE; (* 1039–1046 *)
  F (lit "mustnotalias") FLG_MUSTNOTALIAS false false false true ARG_NONE; (* 1047–1054 *)
  F (lit "retalias") FLG_RETALIAS false false false true ARG_NONE; (* 1055–1061 *)
  F (lit "globalias") FLG_GLOBALIAS true false false false ARG_NONE; (* 1064–1073 *)
  F (lit "checkstrictglobalias") FLG_CHECKSTRICTGLOBALIAS false false false true ARG_NONE; (* 1074–1081 *)
  F (lit "checkedglobalias") FLG_CHECKEDGLOBALIAS false false false true ARG_NONE; (* 1082–1089 *)
  F (lit "checkmodglobalias") FLG_CHECKMODGLOBALIAS false false false true ARG_NONE; (* 1090–1097 *)
  F (lit "uncheckedglobalias") FLG_UNCHECKEDGLOBALIAS false false false true ARG_NONE; (* 1098–1105 *)
  F (lit "exposetrans") FLG_EXPOSETRANS false false false true ARG_NONE; (* 1109–1116 *)
  F (lit "observertrans") FLG_OBSERVERTRANS false false false true ARG_NONE; (* 1117–1124 *)
  F (lit "repexpose") FLG_REPEXPOSE true false false false ARG_NONE; (* 1125–1134 *)
  F (lit "retexpose") FLG_RETEXPOSE false false false true ARG_NONE; (* 1135–1147 *)
  F (lit "assignexpose") FLG_ASSIGNEXPOSE false false false true ARG_NONE; (* 1148–1160 *)
  F (lit "castexpose") FLG_CASTEXPOSE false false false true ARG_NONE; (* 1161–1170 *)
  F (lit "redundantsharequal") FLG_REDUNDANTSHAREQUAL false false false true ARG_NONE; (* 1171–1178 *)
  F (lit "misplacedsharequal") FLG_MISPLACEDSHAREQUAL false false false true ARG_NONE; (* 1179–1186 *)
  F (lit "mods") FLG_MODIFIES false false false false ARG_NONE; (* 1194–1202 *)
  F (lit "mustmod") FLG_MUSTMOD false false false true ARG_NONE; (* 1203–1213 *)
  F (lit "modobserver") FLG_MODOBSERVER false false false false ARG_NONE; (* 1214–1222 *)
  F (lit "modobserveruncon") FLG_MODOBSERVERUNCON false false false true ARG_NONE; (* 1223–1231 *)
  F (lit "modinternalstrict") FLG_MODINTERNALSTRICT false false false true ARG_NONE; (* 1232–1240 *)
  F (lit "modfilesys") FLG_MODFILESYSTEM false false false true ARG_NONE; (* 1241–1248 *)
  F (lit "modunspec") FLG_MODUNSPEC true false false false ARG_NONE; (* 1249–1256 *)
  F (lit "modnomods") FLG_MODNOMODS false false false true ARG_NONE; (* 1257–1267 *)
  F (lit "moduncon") FLG_MODUNCON false false false true ARG_NONE; (* 1268–1278 *)
  F (lit "modunconnomods") FLG_MODUNCONNOMODS false false false true ARG_NONE; (* 1279–1290 *)
  F (lit "globsimpmodsnothing") FLG_GLOBALSIMPMODIFIESNOTHING false false false true ARG_NONE; (* 1291–1300 *)
  F (lit "modsimpnoglobs") FLG_MODIFIESIMPNOGLOBALS false false false true ARG_NONE; (* 1301–1310 *)
  F (lit "globstate") FLG_GLOBSTATE false false false true ARG_NONE; (* 1316–1323 *)
  F (lit "globs") FLG_GLOBALS false false false false ARG_NONE; (* 1325–1336 *)
  F (lit "globuse") FLG_USEALLGLOBS false false false true ARG_NONE; (* 1337–1345 *)
  F (lit "internalglobs") FLG_INTERNALGLOBS false false false true ARG_NONE; (* 1346–1354 *)
  F (lit "internalglobsnoglobs") FLG_INTERNALGLOBSNOGLOBS false false false true ARG_NONE; (* 1355–1363 *)
  F (lit "warnmissingglobs") FLG_WARNMISSINGGLOBALS false false false true ARG_NONE; (* 1364–1372 *)
  F (lit "warnmissingglobsnoglobs") FLG_WARNMISSINGGLOBALSNOGLOBS false false false true ARG_NONE; (* 1374–1382 *)
  F (lit "globnoglobs") FLG_GLOBUNSPEC false false false true ARG_NONE; (* 1383–1395 *)
  F (lit "allglobs") FLG_ALLGLOBALS false false false true ARG_NONE; (* 1396–1402 *)
  F (lit "checkstrictglobs") FLG_CHECKSTRICTGLOBALS false false false true ARG_NONE; (* 1403–1409 *)
  F (lit "impcheckedspecglobs") FLG_IMPCHECKEDSPECGLOBALS false false false true ARG_NONE; (* 1410–1416 *)
  F (lit "impcheckmodspecglobs") FLG_IMPCHECKMODSPECGLOBALS false false false true ARG_NONE; (* 1417–1423 *)
  F (lit "impcheckedstrictspecglobs") FLG_IMPCHECKEDSTRICTSPECGLOBALS false false false true ARG_NONE; (* 1424–1430 *)
  F (lit "impcheckedglobs") FLG_IMPCHECKEDGLOBALS false false false true ARG_NONE; (* 1431–1437 *)
  F (lit "impcheckmodglobs") FLG_IMPCHECKMODGLOBALS false false false true ARG_NONE; (* 1438–1444 *)
  F (lit "impcheckedstrictglobs") FLG_IMPCHECKEDSTRICTGLOBALS false false false true ARG_NONE; (* 1445–1451 *)
  F (lit "impcheckedstatics") FLG_IMPCHECKEDSTATICS false false false true ARG_NONE; (* 1452–1458 *)
  F (lit "impcheckmodstatics") FLG_IMPCHECKMODSTATICS false false false true ARG_NONE; (* 1459–1465 *)
  F (lit "impcheckmodinternals") FLG_IMPCHECKMODINTERNALS false false false true ARG_NONE; (* 1466–1473 *)
  F (lit "impcheckedstrictstatics") FLG_IMPCHECKEDSTRICTSTATICS false false false true ARG_NONE; (* 1474–1480 *)
  F (lit "modglobs") FLG_MODGLOBS false false false true ARG_NONE; (* 1481–1489 *)
  F (lit "modglobsnomods") FLG_MODGLOBSUNSPEC false false false true ARG_NONE; (* 1490–1499 *)
  F (lit "modstrictglobsnomods") FLG_MODSTRICTGLOBSUNSPEC false false false true ARG_NONE; (* 1500–1509 *)
  F (lit "modglobsunchecked") FLG_MODGLOBSUNCHECKED false false false true ARG_NONE; (* 1510–1518 *)
  F (lit "noret") FLG_NORETURN false false false true ARG_NONE; (* 1530–1540 *)
  F (lit "emptyret") FLG_EMPTYRETURN false false false false ARG_NONE; (* 1541–1548 *)
  F (lit "alwaysexits") FLG_ALWAYSEXITS false false false false ARG_NONE; (* 1549–1556 *)
  F (lit "loopexec") FLG_LOOPEXEC true false false false ARG_NONE; (* 1558–1564 *)
  F (lit "forloopexec") FLG_FORLOOPEXEC false false false false ARG_NONE; (* 1565–1571 *)
  F (lit "whileloopexec") FLG_WHILELOOPEXEC false false false false ARG_NONE; (* 1572–1578 *)
  F (lit "iterloopexec") FLG_ITERLOOPEXEC false false false false ARG_NONE; (* 1579–1585 *)
  F (lit "obviousloopexec") FLG_OBVIOUSLOOPEXEC false false false false ARG_NONE; (* 1586–1592 *)
  F (lit "evalorder") FLG_EVALORDER false false false true ARG_NONE; (* 1596–1609 *)
  F (lit "evalorderuncon") FLG_EVALORDERUNCON false false false true ARG_NONE; (* 1610–1620 *)
  F (lit "infloops") FLG_INFLOOPS false false false true ARG_NONE; (* 1626–1636 *)
  F (lit "infloopsuncon") FLG_INFLOOPSUNCON false false false true ARG_NONE; (* 1637–1648 *)
  F (lit "casebreak") FLG_CASEBREAK false false false true ARG_NONE; (* 1652–1658 *)
  F (lit "misscase") FLG_MISSCASE false false false true ARG_NONE; (* 1659–1666 *)
  F (lit "firstcase") FLG_FIRSTCASE false false false true ARG_NONE; (* 1667–1674 *)
  F (lit "duplicatecases") FLG_DUPLICATECASES false false false false ARG_NONE; (* 1675–1682 *)
  F (lit "deepbreak") FLG_DEEPBREAK true false false false ARG_NONE; (* 1686–1695 *)
  F (lit "looploopbreak") FLG_LOOPLOOPBREAK false false false true ARG_NONE; (* 1696–1707 *)
  F (lit "switchloopbreak") FLG_SWITCHLOOPBREAK false false false true ARG_NONE; (* 1708–1719 *)
  F (lit "loopswitchbreak") FLG_LOOPSWITCHBREAK false false false true ARG_NONE; (* 1720–1731 *)
  F (lit "switchswitchbreak") FLG_SWITCHSWITCHBREAK false false false true ARG_NONE; (* 1732–1743 *)
  F (lit "looploopcontinue") FLG_LOOPLOOPCONTINUE false false false true ARG_NONE; (* 1744–1755 *)
  F (lit "whileempty") FLG_WHILEEMPTY false false false true ARG_NONE; (* 1759–1766 *)
  F (lit "whileblock") FLG_WHILEBLOCK false false false true ARG_NONE; (* 1767–1774 *)
  F (lit "forempty") FLG_FOREMPTY false false false true ARG_NONE; (* 1775–1782 *)
  F (lit "forblock") FLG_FORBLOCK false false false true ARG_NONE; (* 1783–1790 *)
  F (lit "ifempty") FLG_IFEMPTY false false false true ARG_NONE; (* 1791–1798 *)
  F (lit "ifblock") FLG_IFBLOCK false false false true ARG_NONE; (* 1799–1806 *)
  F (lit "allempty") FLG_ALLEMPTY true false false false ARG_NONE; (* 1807–1815 *)
  F (lit "allblock") FLG_ALLBLOCK true false false false ARG_NONE; (* 1816–1824 *)
  F (lit "elseifcomplete") FLG_ELSEIFCOMPLETE false false false true ARG_NONE; (* 1828–1835 *)
  F (lit "unreachable") FLG_UNREACHABLE false false false true ARG_NONE; (* 1839–1846 *)
  F (lit "noeffect") FLG_NOEFFECT false false false true ARG_NONE; (* 1850–1857 *)
  F (lit "noeffectuncon") FLG_NOEFFECTUNCON false false false true ARG_NONE; (* 1858–1867 *)
  F (lit "retval") FLG_RETVAL true false false false ARG_NONE; (* 1871–1879 *)
  F (lit "retvalother") FLG_RETVALOTHER false false false true ARG_NONE; (* 1880–1888 *)
  F (lit "retvalbool") FLG_RETVALBOOL false false false true ARG_NONE; (* 1889–1897 *)
  F (lit "retvalint") FLG_RETVALINT false false false true ARG_NONE; (* 1898–1906 *)
  F (lit "nullterminated") FLG_NULLTERMINATED false false false true ARG_NONE; (* 1912–1919 *)
  F (lit "bounds") FLG_BOUNDS true false false false ARG_NONE; (* 1920–1926 *)
  F (lit "likelybounds") FLG_LIKELYBOUNDS true false false false ARG_NONE; (* 1927–1933 *)
  F (lit "likelyboundsread") FLG_LIKELYBOUNDSREAD false false false true ARG_NONE; (* 1934–1941 *)
  F (lit "likelyboundswrite") FLG_LIKELYBOUNDSWRITE false false false true ARG_NONE; (* 1942–1949 *)
  F (lit "boundsread") FLG_BOUNDSREAD false false false true ARG_NONE; (* 1951–1958 *)
  F (lit "boundswrite") FLG_BOUNDSWRITE false false false true ARG_NONE; (* 1959–1966 *)
  F (lit "fcnpost") FLG_FUNCTIONPOST false false false false ARG_NONE; (* 1968–1975 *)
  F (lit "redundantconstraints") FLG_REDUNDANTCONSTRAINTS false false false false ARG_NONE; (* 1976–1983 *)
  F (lit "checkpost") FLG_CHECKPOST false false false true ARG_NONE; (* 1985–1992 *)
  F (lit "impboundsconstraints") FLG_IMPBOUNDSCONSTRAINTS false false false false ARG_NONE; (* 1994–2001 *)
  F (lit "orconstraint") FLG_ORCONSTRAINT false false false false ARG_NONE; (* 2003–2010 *)
  F (lit "showconstraintparens") FLG_PARENCONSTRAINT false false false false ARG_NONE; (* 2011–2018 *)
  F (lit "boundscompacterrormessages") FLG_BOUNDSCOMPACTERRORMESSAGES false false false false ARG_NONE; (* 2020–2027 *)
  F (lit "showconstraintlocation") FLG_CONSTRAINTLOCATION false false false false ARG_NONE; (* 2028–2035 *)
  F (lit "allocmismatch") FLG_ALLOCMISMATCH false false false true ARG_NONE; (* 2037–2043 *)
  F (lit "mts") FLG_MTSFILE false false true false ARG_FILE; (* 2049–2055 *)
  F (lit "statetransfer") FLG_STATETRANSFER false false false true ARG_NONE; (* 2056–2063 *)
  F (lit "statemerge") FLG_STATEMERGE false false false true ARG_NONE; (* 2064–2071 *)
  F (lit "macroredef") FLG_MACROREDEF false false false true ARG_NONE; (* 2077–2083 *)
  F (lit "macrounrecog") FLG_MACROUNDEF false false false true ARG_NONE; (* 2084–2092 *)
  F (lit "macroconstdecl") FLG_MACROCONSTDECL false false false true ARG_NONE; (* 2096–2104 *)
  F (lit "macroconstdistance") FLG_MACROCONSTDIST false false false false ARG_NONE; (* 2106–2113 *)
  F (lit "macrostmt") FLG_MACROSTMT false false false true ARG_NONE; (* 2117–2126 *)
  F (lit "macroempty") FLG_MACROEMPTY false false false true ARG_NONE; (* 2127–2134 *)
  F (lit "macroparams") FLG_MACROPARAMS false false false true ARG_NONE; (* 2135–2147 *)
  F (lit "macroret") FLG_MACRORETURN false false false true ARG_NONE; (* 2148–2157 *)
  F (lit "macroassign") FLG_MACROASSIGN false false false true ARG_NONE; (* 2158–2167 *)
  F (lit "macroparens") FLG_MACROPARENS false false false true ARG_NONE; (* 2168–2177 *)
  F (lit "macrodecl") FLG_MACRODECL false false false true ARG_NONE; (* 2178–2186 *)
  F (lit "macrofcndecl") FLG_MACROFCNDECL false false false true ARG_NONE; (* 2187–2194 *)
  F (lit "sefparams") FLG_SEFPARAMS false false false true ARG_NONE; (* 2198–2205 *)
  F (lit "sefuncon") FLG_SEFUNSPEC false false false true ARG_NONE; (* 2206–2214 *)
  F (lit "constmacros") FLG_CONSTMACROS false false false false ARG_NONE; (* 2218–2226 *)
  F (lit "fcnmacros") FLG_FCNMACROS false false false false ARG_NONE; (* 2227–2235 *)
  F (lit "allmacros") FLG_ALLMACROS true false false false ARG_NONE; (* 2236–2244 *)
  F (lit "libmacros") FLG_LIBMACROS false false false false ARG_NONE; (* 2245–2252 *)
  F (lit "specmacros") FLG_SPECMACROS false false false false ARG_NONE; (* 2253–2260 *)
  F (lit "macromatchname") FLG_MACROMATCHNAME false false false true ARG_NONE; (* 2261–2269 *)
  F (lit "nextlinemacros") FLG_MACRONEXTLINE false false false false ARG_NONE; (* 2270–2277 *)
  F (lit "iterbalance") FLG_ITERBALANCE false false false false ARG_NONE; (* 2281–2288 *)
  F (lit "iteryield") FLG_ITERYIELD false false false false ARG_NONE; (* 2289–2296 *)
  F (lit "hasyield") FLG_HASYIELD false false false false ARG_NONE; (* 2297–2309 *)
  F (lit "namechecks") FLG_NAMECHECKS false false false false ARG_NONE; (* 2315–2321 *)
  F (lit "czech") FLG_CZECH true false false false ARG_NONE; (* 2325–2332 *)
  F (lit "czechfcns") FLG_CZECHFUNCTIONS false false false false ARG_NONE; (* 2333–2339 *)
  F (lit "czechvars") FLG_CZECHVARS false false false false ARG_NONE; (* 2340–2346 *)
  F (lit "czechmacros") FLG_CZECHMACROS false false false false ARG_NONE; (* 2347–2353 *)
  F (lit "czechconsts") FLG_CZECHCONSTANTS false false false false ARG_NONE; (* 2354–2360 *)
  F (lit "czechtypes") FLG_CZECHTYPES false false false false ARG_NONE; (* 2361–2368 *)
  F (lit "slovak") FLG_SLOVAK true false false false ARG_NONE; (* 2372–2378 *)
  F (lit "slovakfcns") FLG_SLOVAKFUNCTIONS false false false false ARG_NONE; (* 2379–2385 *)
  F (lit "slovakmacros") FLG_SLOVAKMACROS false false false false ARG_NONE; (* 2386–2392 *)
  F (lit "slovakvars") FLG_SLOVAKVARS false false false false ARG_NONE; (* 2393–2399 *)
  F (lit "slovakconsts") FLG_SLOVAKCONSTANTS false false false false ARG_NONE; (* 2400–2406 *)
  F (lit "slovaktypes") FLG_SLOVAKTYPES false false false false ARG_NONE; (* 2407–2414 *)
  F (lit "czechoslovak") FLG_CZECHOSLOVAK true false false false ARG_NONE; (* 2417–2423 *)
  F (lit "czechoslovakfcns") FLG_CZECHOSLOVAKFUNCTIONS false false false false ARG_NONE; (* 2424–2430 *)
  F (lit "czechoslovakmacros") FLG_CZECHOSLOVAKMACROS false false false false ARG_NONE; (* 2431–2437 *)
  F (lit "czechoslovakvars") FLG_CZECHOSLOVAKVARS false false false false ARG_NONE; (* 2438–2444 *)
  F (lit "czechoslovakconsts") FLG_CZECHOSLOVAKCONSTANTS false false false false ARG_NONE; (* 2445–2451 *)
  F (lit "czechoslovaktypes") FLG_CZECHOSLOVAKTYPES false false false false ARG_NONE; (* 2452–2459 *)
  F (lit "macrovarprefix") FLG_MACROVARPREFIX false true false false ARG_STRING; (* 2463–2470 *)
  F (lit "macrovarprefixexclude") FLG_MACROVARPREFIXEXCLUDE false false false false ARG_NONE; (* 2471–2478 *)
  F (lit "tagprefix") FLG_TAGPREFIX false true false false ARG_STRING; (* 2479–2486 *)
  F (lit "tagprefixexclude") FLG_TAGPREFIXEXCLUDE false false false false ARG_NONE; (* 2487–2494 *)
  F (lit "enumprefix") FLG_ENUMPREFIX false true false false ARG_STRING; (* 2495–2502 *)
  F (lit "enumprefixexclude") FLG_ENUMPREFIXEXCLUDE false false false false ARG_NONE; (* 2503–2510 *)
  F (lit "filestaticprefix") FLG_FILESTATICPREFIX false true false false ARG_STRING; (* 2511–2518 *)
  F (lit "filestaticprefixexclude") FLG_FILESTATICPREFIXEXCLUDE false false false false ARG_NONE; (* 2519–2526 *)
  F (lit "globalprefix") FLG_GLOBPREFIX false true false false ARG_STRING; (* 2527–2534 *)
  F (lit "globalprefixexclude") FLG_GLOBPREFIXEXCLUDE false false false false ARG_NONE; (* 2535–2542 *)
  F (lit "typeprefix") FLG_TYPEPREFIX false true false false ARG_STRING; (* 2543–2550 *)
  F (lit "typeprefixexclude") FLG_TYPEPREFIXEXCLUDE false false false false ARG_NONE; (* 2551–2558 *)
  F (lit "externalprefix") FLG_EXTERNALPREFIX false true false false ARG_STRING; (* 2559–2566 *)
  F (lit "externalprefixexclude") FLG_EXTERNALPREFIXEXCLUDE false false false false ARG_NONE; (* 2567–2574 *)
  F (lit "localprefix") FLG_LOCALPREFIX false true false false ARG_STRING; (* 2575–2582 *)
  F (lit "localprefixexclude") FLG_LOCALPREFIXEXCLUDE false false false false ARG_NONE; (* 2583–2590 *)
  F (lit "uncheckedmacroprefix") FLG_UNCHECKEDMACROPREFIX false true false false ARG_STRING; (* 2591–2598 *)
  F (lit "uncheckedmacroprefixexclude") FLG_UNCHECKEDMACROPREFIXEXCLUDE false false false false ARG_NONE; (* 2599–2608 *)
  F (lit "constprefix") FLG_CONSTPREFIX false true false false ARG_STRING; (* 2609–2616 *)
  F (lit "constprefixexclude") FLG_CONSTPREFIXEXCLUDE false false false false ARG_NONE; (* 2617–2624 *)
  F (lit "iterprefix") FLG_ITERPREFIX false true false false ARG_STRING; (* 2625–2632 *)
  F (lit "iterprefixexclude") FLG_ITERPREFIXEXCLUDE false false false false ARG_NONE; (* 2633–2640 *)
  F (lit "protoparamprefix") FLG_DECLPARAMPREFIX false true false false ARG_STRING; (* 2641–2649 *)
  F (lit "isoreserved") FLG_ISORESERVED false false false true ARG_NONE; (* 2652–2659 *)
  F (lit "cppnames") FLG_CPPNAMES false false false true ARG_NONE; (* 2660–2669 *)
  F (lit "isoreservedinternal") FLG_ISORESERVEDLOCAL false false false true ARG_NONE; (* 2670–2677 *)
  F (lit "distinctexternalnames") FLG_DISTINCTEXTERNALNAMES false false false false ARG_NONE; (* 2678–2693 *)
  F (lit "externalnamelen") FLG_EXTERNALNAMELEN true false false false ARG_NUMBER; (* 2694–2703 *)
  F (lit "externalnamecaseinsensitive") FLG_EXTERNALNAMECASEINSENSITIVE true false false false ARG_NONE; (* 2704–2714 *)
  F (lit "distinctinternalnames") FLG_DISTINCTINTERNALNAMES false false false false ARG_NONE; (* 2715–2731 *)
  F (lit "internalnamelen") FLG_INTERNALNAMELEN true false false false ARG_NUMBER; (* 2732–2740 *)
  F (lit "internalnamecaseinsensitive") FLG_INTERNALNAMECASEINSENSITIVE true false false false ARG_NONE; (* 2741–2753 *)
  F (lit "internalnamelookalike") FLG_INTERNALNAMELOOKALIKE true false false false ARG_NONE; (* 2754–2762 *)
  F (lit "protoparamname") FLG_DECLPARAMNAME false false false true ARG_NONE; (* 2763–2771 *)
  F (lit "protoparammatch") FLG_DECLPARAMMATCH false false false true ARG_NONE; (* 2772–2782 *)
  F (lit "protoparamprefixexclude") FLG_DECLPARAMPREFIXEXCLUDE false false false false ARG_NONE; (* 2783–2791 *)
  F (lit "topuse") FLG_TOPUNUSED false false false true ARG_NONE; (* 2799–2805 *)
  F (lit "exportlocal") FLG_EXPORTLOCAL false false false true ARG_NONE; (* 2806–2814 *)
  F (lit "exportheader") FLG_EXPORTHEADER false false false true ARG_NONE; (* 2815–2822 *)
  F (lit "exportheadervar") FLG_EXPORTHEADERVAR false false false true ARG_NONE; (* 2823–2831 *)
  F (lit "fielduse") FLG_FIELDUNUSED false false false true ARG_NONE; (* 2832–2839 *)
  F (lit "enummemuse") FLG_ENUMMEMUNUSED false false false true ARG_NONE; (* 2840–2847 *)
  F (lit "constuse") FLG_CONSTUNUSED false false false true ARG_NONE; (* 2848–2855 *)
  F (lit "fcnuse") FLG_FUNCUNUSED false false false true ARG_NONE; (* 2856–2863 *)
  F (lit "paramuse") FLG_PARAMUNUSED false false false true ARG_NONE; (* 2864–2871 *)
  F (lit "typeuse") FLG_TYPEUNUSED false false false true ARG_NONE; (* 2872–2879 *)
  F (lit "varuse") FLG_VARUNUSED false false false true ARG_NONE; (* 2880–2888 *)
  F (lit "unusedspecial") FLG_UNUSEDSPECIAL false false false true ARG_NONE; (* 2889–2895 *)
  F (lit "declundef") FLG_DECLUNDEF false false false true ARG_NONE; (* 2899–2906 *)
  F (lit "specundef") FLG_SPECUNDEF false false false true ARG_NONE; (* 2907–2914 *)
  F (lit "specundecl") FLG_SPECUNDECL false false false false ARG_NONE; (* 2915–2923 *)
  F (lit "newdecl") FLG_NEWDECL false false false false ARG_NONE; (* 2924–2933 *)
  F (lit "needspec") FLG_NEEDSPEC false false false false ARG_NONE; (* 2934–2945 *)
  F (lit "nolib") FLG_NOLIB false true true false ARG_NONE; (* 2953–2959 *)
  F (lit "isolib") FLG_ANSILIB false true true false ARG_NONE; (* 2960–2967 *)
  F (lit "strictlib") FLG_STRICTLIB false true true false ARG_NONE; (* 2968–2976 *)
  F (lit "unixlib") FLG_UNIXLIB false true true false ARG_NONE; (* 2977–2984 *)
  F (lit "unixstrictlib") FLG_UNIXSTRICTLIB false true true false ARG_NONE; (* 2985–2992 *)
  F (lit "posixlib") FLG_POSIXLIB false true true false ARG_NONE; (* 2993–3000 *)
  F (lit "posixstrictlib") FLG_POSIXSTRICTLIB false true true false ARG_NONE; (* 3001–3008 *)
  F (lit "whichlib") FLG_WHICHLIB false true true false ARG_NONE; (* 3009–3015 *)
  F (lit "warnposixheaders") FLG_WARNPOSIX false false false false ARG_NONE; (* 3016–3023 *)
  F (lit "warnunixlib") FLG_WARNUNIXLIB false false false false ARG_NONE; (* 3024–3031 *)
  F (lit "usevarargs") FLG_USEVARARGS false false false false ARG_NONE; (* 3032–3040 *)
  F (lit "caseinsensitivefilenames") FLG_CASEINSENSITIVEFILENAMES false false false false ARG_NONE; (* 3041–3047 *)
  F (lit "dump") FLG_DUMP false false true false ARG_FILE; (* 3051–3057 *)
  F (lit "load") FLG_MERGE false false true false ARG_FILE; (* 3058–3064 *)
  F (lit "singleinclude") FLG_SINGLEINCLUDE false false true false ARG_NONE; (* 3068–3079 *)
  F (lit "neverinclude") FLG_NEVERINCLUDE false false true false ARG_NONE; (* 3080–3088 *)
  F (lit "skipsysheaders") FLG_SKIPSYSHEADERS false false true false ARG_NONE; (* 3089–3096 *)
  F (lit "gnuextensions") FLG_GNUEXTENSIONS false false false false ARG_NONE; (* 3107–3114 *)
  F (lit "noparams") FLG_NOPARAMS false false false true ARG_NONE; (* 3118–3125 *)
  F (lit "oldstyle") FLG_OLDSTYLE false false false true ARG_NONE; (* 3126–3134 *)
  F (lit "maintype") FLG_MAINTYPE false false false false ARG_NONE; (* 3141–3148 *)
  F (lit "exitarg") FLG_EXITARG false false false true ARG_NONE; (* 3149–3156 *)
  F (lit "shadow") FLG_SHADOW false false false true ARG_NONE; (* 3158–3165 *)
  F (lit "incondefslib") FLG_INCONDEFSLIB false false false true ARG_NONE; (* 3166–3174 *)
  F (lit "overload") FLG_WARNOVERLOAD false false false true ARG_NONE; (* 3175–3183 *)
  F (lit "nestedextern") FLG_NESTEDEXTERN false false false true ARG_NONE; (* 3184–3191 *)
  F (lit "redecl") FLG_REDECL false false false true ARG_NONE; (* 3192–3200 *)
  F (lit "redef") FLG_REDEF false false false false ARG_NONE; (* 3201–3208 *)
  F (lit "imptype") FLG_IMPTYPE false false false true ARG_NONE; (* 3209–3216 *)
  F (lit "tmpdir") FLG_TMPDIR false false true false ARG_DIRECTORY; (* 3218–3224 *)
  F (lit "larchpath") FLG_LARCHPATH false false true false ARG_PATH; (* 3225–3231 *)
  F (lit "lclimportdir") FLG_LCLIMPORTDIR false false true false ARG_DIRECTORY; (* 3232–3238 *)
  F (lit "sysdirs") FLG_SYSTEMDIRS false false true false ARG_PATH; (* 3239–3249 *)
  F (lit "skipisoheaders") FLG_SKIPISOHEADERS false false false false ARG_NONE; (* 3250–3262 *)
  F (lit "skipposixheaders") FLG_SKIPPOSIXHEADERS false false false false ARG_NONE; (* 3263–3273 *)
  F (lit "sysdirerrors") FLG_SYSTEMDIRERRORS false false false true ARG_NONE; (* 3274–3280 *)
  F (lit "sysdirexpandmacros") FLG_SYSTEMDIREXPAND false false false false ARG_NONE; (* 3281–3288 *)
  F (lit "I<directory>") FLG_INCLUDEPATH false false true false ARG_SPECIAL; (* 3290–3296 *)
  F (lit "S<directory>") FLG_SPECPATH false false true false ARG_SPECIAL; (* 3297–3303 *)
  F (lit "exportany") FLG_EXPORTANY true false false false ARG_NONE; (* 3304–3311 *)
  F (lit "exportfcn") FLG_EXPORTFCN false false false true ARG_NONE; (* 3312–3318 *)
  F (lit "exportmacro") FLG_EXPORTMACRO false false false true ARG_NONE; (* 3319–3325 *)
  F (lit "exporttype") FLG_EXPORTTYPE false false false true ARG_NONE; (* 3326–3332 *)
  F (lit "exportvar") FLG_EXPORTVAR false false false true ARG_NONE; (* 3333–3339 *)
  F (lit "exportconst") FLG_EXPORTCONST false false false true ARG_NONE; (* 3340–3346 *)
  F (lit "exportiter") FLG_EXPORTITER false false false true ARG_NONE; (* 3347–3353 *)
  F (lit "linelen") FLG_LINELEN false false false false ARG_NUMBER; (* 3355–3361 *)
  F (lit "indentspaces") FLG_INDENTSPACES false false false false ARG_NUMBER; (* 3362–3368 *)
  F (lit "locindentspaces") FLG_LOCINDENTSPACES false false false false ARG_NUMBER; (* 3369–3375 *)
  F (lit "showdeephistory") FLG_SHOWDEEPHISTORY false false false false ARG_NONE; (* 3376–3382 *)
  F (lit "showcolumn") FLG_SHOWCOL false false false false ARG_NONE; (* 3383–3389 *)
  F (lit "showloadloc") FLG_SHOWLOADLOC false false false false ARG_NONE; (* 3390–3396 *)
  F (lit "csv") FLG_CSV false true true false ARG_FILE; (* 3397–3403 *)
  F (lit "csvoverwrite") FLG_CSVOVERWRITE false false false false ARG_NONE; (* 3404–3410 *)
  F (lit "parenfileformat") FLG_PARENFILEFORMAT false false false false ARG_NONE; (* 3411–3417 *)
  F (lit "htmlfileformat") FLG_HTMLFILEFORMAT false false false false ARG_NONE; (* 3418–3424 *)
  F (lit "showfunc") FLG_SHOWFUNC false false false false ARG_NONE; (* 3425–3431 *)
  F (lit "showallconjs") FLG_SHOWALLCONJS false false false false ARG_NONE; (* 3432–3440 *)
  F (lit "impconj") FLG_IMPCONJ false false false false ARG_NONE; (* 3441–3447 *)
  F (lit "expect") FLG_EXPECT false false true false ARG_NUMBER; (* 3448–3454 *)
  F (lit "lclexpect") FLG_LCLEXPECT false false true false ARG_NUMBER; (* 3455–3461 *)
  F (lit "partial") FLG_PARTIAL true true false false ARG_NONE; (* 3462–3469 *)
  F (lit "lh") FLG_DOLH false false true false ARG_NONE; (* 3475–3481 *)
  F (lit "lcs") FLG_DOLCS false false true false ARG_NONE; (* 3482–3488 *)
  F (lit "warnflags") FLG_WARNFLAGS false false false false ARG_NONE; (* 3494–3501 *)
  F (lit "warnrc") FLG_WARNRC false false false false ARG_NONE; (* 3502–3509 *)
  F (lit "badflag") FLG_BADFLAG false false false false ARG_NONE; (* 3510–3517 *)
  F (lit "fileextensions") FLG_FILEEXTENSIONS false false false false ARG_NONE; (* 3518–3524 *)
  F (lit "help") FLG_HELP false false true false ARG_SPECIAL; (* 3525–3532 *)
  F (lit "f") FLG_OPTF false true true false ARG_FILE; (* 3533–3540 *)
  F (lit "i") FLG_INIT false true true false ARG_FILE; (* 3541–3547 *)
  F (lit "nof") FLG_NOF false false true false ARG_NONE; (* 3548–3555 *)
  F (lit "commentchar") FLG_COMMENTCHAR false false false false ARG_CHAR; (* 3556–3565 *)
  F (lit "controlnestdepth") FLG_CONTROLNESTDEPTH false false false true ARG_NUMBER; (* 3571–3579 *)
  F (lit "stringliterallen") FLG_STRINGLITERALLEN false false false true ARG_NUMBER; (* 3580–3587 *)
  F (lit "numstructfields") FLG_NUMSTRUCTFIELDS false false false true ARG_NUMBER; (* 3588–3595 *)
  F (lit "numenummembers") FLG_NUMENUMMEMBERS false false false true ARG_NUMBER; (* 3596–3603 *)
  F (lit "includenest") FLG_INCLUDENEST false false false true ARG_NUMBER; (* 3604–3611 *)
  F (lit "ansi89limits") FLG_ANSI89LIMITS true false false false ARG_NONE; (* 3612–3620 *)
  F (lit "iso99limits") FLG_ISO99LIMITS true false false false ARG_NONE; (* 3621–3629 *)
  F (lit "D<initializer>") FLG_DEFINE false false true false ARG_SPECIAL; (* 3631–3637 *)
  F (lit "U<initializer>") FLG_UNDEFINE false false true false ARG_SPECIAL; (* 3638–3644 *)
  F (lit "unrecogdirective") FLG_UNRECOGDIRECTIVE false false false false ARG_NONE; (* 3645–3652 *)
  F (lit "supcounts") FLG_SUPCOUNTS false false true false ARG_NONE; (* 3653–3659 *)
  F (lit "limit") FLG_LIMIT false false false false ARG_NUMBER; (* 3660–3666 *)
  F (lit "syntax") FLG_SYNTAX false false false false ARG_NONE; (* 3667–3674 *)
  F (lit "trytorecover") FLG_TRYTORECOVER false false false false ARG_NONE; (* 3675–3681 *)
  F (lit "preproc") FLG_PREPROC false false false false ARG_NONE; (* 3682–3689 *)
  F (lit "type") FLG_TYPE false false false false ARG_NONE; (* 3691–3698 *)
  F (lit "stringliteraltoolong") FLG_STRINGLITTOOLONG false false false false ARG_NONE; (* 3700–3707 *)
  F (lit "stringliteralnoroomfinalnull") FLG_STRINGLITNOROOMFINALNULL false false false true ARG_NONE; (* 3708–3715 *)
  F (lit "stringliteralnoroom") FLG_STRINGLITNOROOM false false false true ARG_NONE; (* 3716–3723 *)
  F (lit "stringliteralsmaller") FLG_STRINGLITSMALLER false false false true ARG_NONE; (* 3724–3731 *)
  F (lit "enummembers") FLG_ENUMMEMBERS false false false true ARG_NONE; (* 3732–3739 *)
  F (lit "formattype") FLG_FORMATTYPE false false false false ARG_NONE; (* 3741–3748 *)
  F (lit "formatconst") FLG_FORMATCONST false false false true ARG_NONE; (* 3749–3756 *)
  F (lit "formatcode") FLG_FORMATCODE false false false false ARG_NONE; (* 3757–3764 *)
  F (lit "forwarddecl") FLG_FORWARDDECL false false false true ARG_NONE; (* 3765–3771 *)
  F (lit "voidabstract") FLG_ABSTVOIDP false false false true ARG_NONE; (* 3772–3779 *)
  F (lit "castfcnptr") FLG_CASTFCNPTR false false false false ARG_NONE; (* 3780–3787 *)
  F (lit "charindex") FLG_CHARINDEX false false false true ARG_NONE; (* 3788–3794 *)
  F (lit "enumindex") FLG_ENUMINDEX false false false true ARG_NONE; (* 3795–3801 *)
  F (lit "boolint") FLG_BOOLINT false false false true ARG_NONE; (* 3802–3809 *)
  F (lit "charint") FLG_CHARINT false false false true ARG_NONE; (* 3810–3817 *)
  F (lit "enumint") FLG_ENUMINT false false false true ARG_NONE; (* 3818–3825 *)
  F (lit "longint") FLG_LONGINT false false false true ARG_NONE; (* 3826–3833 *)
  F (lit "shortint") FLG_SHORTINT false false false true ARG_NONE; (* 3834–3841 *)
  F (lit "floatdouble") FLG_FLOATDOUBLE false false false true ARG_NONE; (* 3842–3849 *)
  F (lit "ignorequals") FLG_IGNOREQUALS false false false true ARG_NONE; (* 3850–3857 *)
  F (lit "duplicatequals") FLG_DUPLICATEQUALS false false false false ARG_NONE; (* 3858–3865 *)
  F (lit "ignoresigns") FLG_IGNORESIGNS false false false true ARG_NONE; (* 3866–3873 *)
  F (lit "numliteral") FLG_NUMLITERAL false false false true ARG_NONE; (* 3874–3882 *)
  F (lit "charintliteral") FLG_CHARINTLITERAL false false false true ARG_NONE; (* 3883–3892 *)
  F (lit "relaxquals") FLG_RELAXQUALS false false false true ARG_NONE; (* 3893–3899 *)
  F (lit "relaxtypes") FLG_RELAXTYPES false false false true ARG_NONE; (* 3900–3906 *)
  F (lit "charunsignedchar") FLG_CHARUNSIGNEDCHAR false false false true ARG_NONE; (* 3907–3914 *)
  F (lit "matchanyintegral") FLG_MATCHANYINTEGRAL false false false true ARG_NONE; (* 3915–3922 *)
  F (lit "longunsignedintegral") FLG_LONGUNSIGNEDINTEGRAL false false false true ARG_NONE; (* 3923–3930 *)
  F (lit "longintegral") FLG_LONGINTEGRAL false false false true ARG_NONE; (* 3931–3938 *)
  F (lit "longunsignedunsignedintegral") FLG_LONGUNSIGNEDUNSIGNEDINTEGRAL false false false true ARG_NONE; (* 3939–3947 *)
  F (lit "longsignedintegral") FLG_LONGSIGNEDINTEGRAL false false false true ARG_NONE; (* 3948–3955 *)
  F (lit "zeroptr") FLG_ZEROPTR false false false false ARG_NONE; (* 3956–3962 *)
  F (lit "zerobool") FLG_ZEROBOOL false false false true ARG_NONE; (* 3963–3969 *)
  F (lit "repeatunrecog") FLG_REPEATUNRECOG false false false false ARG_NONE; (* 3970–3977 *)
  F (lit "sysunrecog") FLG_SYSTEMUNRECOG false false false false ARG_NONE; (* 3978–3987 *)
  F (lit "unrecog") FLG_UNRECOG false false false false ARG_NONE; (* 3988–3994 *)
  F (lit "annotationerror") FLG_ANNOTATIONERROR false false false false ARG_NONE; (* 3997–4004 *)
  F (lit "commenterror") FLG_COMMENTERROR false false false false ARG_NONE; (* 4005–4012 *)
  F (lit "warnuse") FLG_WARNUSE false false false false ARG_NONE; (* 4018–4025 *)
  F (lit "bufferoverflow") FLG_BUFFEROVERFLOW false false false true ARG_NONE; (* 4026–4033 *)
  F (lit "bufferoverflowhigh") FLG_BUFFEROVERFLOWHIGH false false false true ARG_NONE; (* 4034–4041 *)
  F (lit "implementationoptional") FLG_IMPLEMENTATIONOPTIONAL false false false true ARG_NONE; (* 4042–4049 *)
  F (lit "legacy") FLG_LEGACY false false false true ARG_NONE; (* 4050–4057 *)
  F (lit "multithreaded") FLG_MULTITHREADED false false false true ARG_NONE; (* 4058–4065 *)
  F (lit "portability") FLG_PORTABILITY false false false true ARG_NONE; (* 4066–4073 *)
  F (lit "superuser") FLG_SUPERUSER false false false true ARG_NONE; (* 4074–4081 *)
  F (lit "toctou") FLG_TOCTOU false false false true ARG_NONE; (* 4082–4089 *)
  F (lit "unixstandard") FLG_UNIXSTANDARD false false false true ARG_NONE; (* 4090–4097 *)
  F (lit "its4mostrisky") FLG_ITS4MOSTRISKY true false false false ARG_NONE; (* 4105–4112 *)
  F (lit "its4veryrisky") FLG_ITS4VERYRISKY true false false false ARG_NONE; (* 4113–4120 *)
  F (lit "its4risky") FLG_ITS4RISKY true false false false ARG_NONE; (* 4121–4128 *)
  F (lit "its4moderate") FLG_ITS4MODERATERISK true false false false ARG_NONE; (* 4129–4136 *)
  F (lit "its4low") FLG_ITS4LOWRISK true false false false ARG_NONE; (* 4137–4144 *)
  F (lit "nocomments") FLG_NOCOMMENTS false false false false ARG_NONE; (* 4150–4156 *)
  F (lit "noaccess") FLG_NOACCESS false false false false ARG_NONE; (* 4157–4163 *)
  F (lit "unrecogcomments") FLG_UNRECOGCOMMENTS false false false false ARG_NONE; (* 4165–4173 *)
  F (lit "unrecogflagcomments") FLG_UNRECOGFLAGCOMMENTS false false false false ARG_NONE; (* 4174–4181 *)
  F (lit "tmpcomments") FLG_TMPCOMMENTS false false false true ARG_NONE; (* 4182–4188 *)
  F (lit "lintcomments") FLG_LINTCOMMENTS false false false false ARG_NONE; (* 4189–4195 *)
  F (lit "warnlintcomments") FLG_WARNLINTCOMMENTS false false false true ARG_NONE; (* 4196–4206 *)
  F (lit "continuecomment") FLG_CONTINUECOMMENT false false false false ARG_NONE; (* 4212–4221 *)
  F (lit "slashslashcomment") FLG_SLASHSLASHCOMMENT false false false false ARG_NONE; (* 4222–4229 *)
  F (lit "nestcomment") FLG_NESTCOMMENT false false false false ARG_NONE; (* 4230–4238 *)
  F (lit "quiet") FLG_QUIET false false false false ARG_NONE; (* 4246–4252 *)
  F (lit "messagestreamstdout") FLG_MESSAGESTREAMSTDOUT false true true false ARG_NONE; (* 4258–4264 *)
  F (lit "messagestreamstderr") FLG_MESSAGESTREAMSTDERR false true true false ARG_NONE; (* 4265–4271 *)
  F (lit "messagestream") FLG_MESSAGESTREAM false false true false ARG_FILE; (* 4272–4278 *)
  F (lit "warningstreamstdout") FLG_WARNINGSTREAMSTDOUT false true true false ARG_NONE; (* 4280–4286 *)
  F (lit "warningstreamstderr") FLG_WARNINGSTREAMSTDERR false true true false ARG_NONE; (* 4287–4293 *)
  F (lit "warningstream") FLG_WARNINGSTREAM false false true false ARG_FILE; (* 4294–4300 *)
  F (lit "errorstreamstdout") FLG_ERRORSTREAMSTDOUT false true true false ARG_NONE; (* 4302–4308 *)
  F (lit "errorstreamstderr") FLG_ERRORSTREAMSTDERR false true true false ARG_NONE; (* 4309–4315 *)
  F (lit "errorstream") FLG_ERRORSTREAM false false true false ARG_FILE; (* 4316–4322 *)
  F (lit "streamoverwrite") FLG_STREAMOVERWRITE false false true false ARG_NONE; (* 4324–4330 *)
  F (lit "showsummary") FLG_SHOWSUMMARY false false false false ARG_NONE; (* 4333–4339 *)
  F (lit "showscan") FLG_SHOWSCAN false false false false ARG_NONE; (* 4340–4346 *)
  F (lit "warnsysfiles") FLG_WARNSYSFILES false false false false ARG_NONE; (* 4347–4353 *)
  F (lit "stats") FLG_STATS false false true false ARG_NONE; (* 4354–4360 *)
  F (lit "timedist") FLG_TIMEDIST false false true false ARG_NONE; (* 4361–4367 *)
  F (lit "showalluses") FLG_SHOWUSES false false true false ARG_NONE; (* 4368–4374 *)
  F (lit "hints") FLG_HINTS false false false false ARG_NONE; (* 4378–4385 *)
  F (lit "forcehints") FLG_FORCEHINTS false false false false ARG_NONE; (* 4386–4393 *)
  F (lit "bugslimit") FLG_BUGSLIMIT false false false false ARG_NUMBER; (* 4399–4405 *)
  F (lit "debugfcnconstraint") FLG_DEBUGFUNCTIONCONSTRAINT false false false false ARG_NONE; (* 4406–4413 *)
  F (lit "grammar") FLG_GRAMMAR true true false false ARG_NONE; (* 4414–4420 *)
  F (lit "keep") FLG_KEEP false true false false ARG_NONE; (* 4421–4427 *)
  F (lit "nopp") FLG_NOPP false true false false ARG_NONE; (* 4428–4434 *)
  F (lit "showsourceloc") FLG_SHOWSOURCELOC false true false false ARG_NONE (* 4435–4441 *)
].

(** src/context.c 1029–1113. *)
Definition standard_flags : list Z := [
  FLG_ENUMINT; FLG_MACROMATCHNAME; FLG_STRINGLITNOROOM; FLG_STRINGLITNOROOMFINALNULL; FLG_MACROUNDEF;
  FLG_RELAXQUALS; FLG_USEALLGLOBS; FLG_CHECKSTRICTGLOBALS; FLG_CHECKSTRICTGLOBALIAS; FLG_CHECKEDGLOBALIAS;
  FLG_CHECKMODGLOBALIAS; FLG_PREDBOOLOTHERS; FLG_PREDBOOLINT; FLG_UNSIGNEDCOMPARE; FLG_PARAMUNUSED;
  FLG_VARUNUSED; FLG_FUNCUNUSED; FLG_TYPEUNUSED; FLG_ABSTRACTCOMPARE; FLG_CONSTUNUSED; FLG_ENUMMEMUNUSED;
  FLG_FIELDUNUSED; FLG_PTRNUMCOMPARE; FLG_BOOLCOMPARE; FLG_UNSIGNEDCOMPARE; FLG_MUTREP; FLG_NOEFFECT;
  FLG_IMPTYPE; FLG_RETVALOTHER; FLG_RETVALBOOL; FLG_RETVALINT; FLG_SPECUNDEF; FLG_INCONDEFS;
  FLG_INCONDEFSLIB; FLG_MISPLACEDSHAREQUAL; FLG_MATCHFIELDS; FLG_FORMATCONST; FLG_MACROPARAMS;
  FLG_MACROASSIGN; FLG_SEFPARAMS; FLG_MACROSTMT; FLG_MACROPARENS; FLG_MACROFCNDECL; FLG_MACROCONSTDECL;
  FLG_MACROREDEF; FLG_INFLOOPS; FLG_UNREACHABLE; FLG_NORETURN; FLG_CASEBREAK; FLG_MISSCASE; FLG_USEDEF;
  FLG_FIRSTCASE; FLG_NESTEDEXTERN; FLG_NUMLITERAL; FLG_ZEROBOOL; FLG_NULLDEREF; FLG_NULLSTATE;
  FLG_NULLASSIGN; FLG_NULLPASS; FLG_NULLRET; FLG_ALLOCMISMATCH; FLG_COMPDEF; FLG_COMPMEMPASS; FLG_UNIONDEF;
  FLG_RETSTACK; FLG_EXPOSETRANS; FLG_OBSERVERTRANS; FLG_DEPENDENTTRANS; FLG_NEWREFTRANS; FLG_ONLYTRANS;
  FLG_OWNEDTRANS; FLG_FRESHTRANS; FLG_SHAREDTRANS; FLG_TEMPTRANS; FLG_KEPTTRANS; FLG_REFCOUNTTRANS;
  FLG_STATICTRANS; FLG_UNKNOWNTRANS; FLG_KEEPTRANS; FLG_IMMEDIATETRANS; FLG_NUMABSTRACTCAST; FLG_EXPORTLOCAL;
  FLG_USERELEASED; FLG_ALIASUNIQUE; FLG_MAYALIASUNIQUE; FLG_MUSTFREEONLY; FLG_MUSTFREEFRESH; FLG_MUSTDEFINE;
  FLG_GLOBSTATE; FLG_COMPDESTROY; FLG_MUSTNOTALIAS; FLG_MEMIMPLICIT; FLG_BRANCHSTATE; FLG_STATETRANSFER;
  FLG_STATEMERGE; FLG_EVALORDER; FLG_SHADOW; FLG_READONLYSTRINGS; FLG_EXITARG; FLG_IMPCHECKEDSPECGLOBALS;
  FLG_MODGLOBS; FLG_WARNLINTCOMMENTS; FLG_IFEMPTY; FLG_REALCOMPARE; FLG_BOOLOPS; FLG_PTRNEGATE;
  FLG_SHIFTNEGATIVE; FLG_SHIFTIMPLEMENTATION; FLG_BUFFEROVERFLOWHIGH; FLG_BUFFEROVERFLOW].

(** src/context.c 1115–1144. *)
Definition weak_flags : list Z := [
  FLG_BOOLINT; FLG_CHARINT; FLG_FLOATDOUBLE; FLG_LONGINT; FLG_SHORTINT; FLG_ENUMINT; FLG_RELAXQUALS;
  FLG_FORWARDDECL; FLG_CHARINDEX; FLG_NUMABSTRACTINDEX; FLG_ABSTVOIDP; FLG_USEALLGLOBS; FLG_CHARUNSIGNEDCHAR;
  FLG_PREDBOOLOTHERS; FLG_NUMABSTRACTLIT; FLG_VARUNUSED; FLG_FUNCUNUSED; FLG_TYPEUNUSED;
  FLG_CHECKSTRICTGLOBALS; FLG_MACROMATCHNAME; FLG_RETVALOTHER; FLG_IFEMPTY; FLG_BUFFEROVERFLOWHIGH;
  FLG_RETSTACK; FLG_PTRNEGATE; FLG_STATETRANSFER; FLG_STATEMERGE; FLG_LONGUNSIGNEDINTEGRAL;
  FLG_LONGUNSIGNEDUNSIGNEDINTEGRAL; FLG_NUMLITERAL; FLG_CHARINTLITERAL; FLG_ZEROBOOL; FLG_BUFFEROVERFLOWHIGH;
  FLG_STRINGLITNOROOM; FLG_STRINGLITNOROOMFINALNULL].

(** src/context.c 1146–1244. *)
Definition checks_flags : list Z := [
  FLG_EXPORTLOCAL; FLG_IMPTYPE; FLG_NUMABSTRACTCAST; FLG_ABSTRACTCOMPARE; FLG_STATETRANSFER; FLG_STATEMERGE;
  FLG_CHECKSTRICTGLOBALIAS; FLG_CHECKEDGLOBALIAS; FLG_CHECKMODGLOBALIAS; FLG_UNCHECKEDGLOBALIAS;
  FLG_FORMATCONST; FLG_STRINGLITNOROOM; FLG_STRINGLITNOROOMFINALNULL; FLG_STRINGLITSMALLER; FLG_EXITARG;
  FLG_PTRNUMCOMPARE; FLG_BOOLCOMPARE; FLG_UNSIGNEDCOMPARE; FLG_MACROUNDEF; FLG_MUSTMOD; FLG_ALLGLOBALS;
  FLG_PREDBOOLOTHERS; FLG_PREDBOOLPTR; FLG_PREDBOOLINT; FLG_USEALLGLOBS; FLG_MUTREP; FLG_RETALIAS;
  FLG_RETEXPOSE; FLG_ASSIGNEXPOSE; FLG_CASTEXPOSE; FLG_FUNCUNUSED; FLG_GLOBALSIMPMODIFIESNOTHING;
  FLG_TYPEUNUSED; FLG_FIELDUNUSED; FLG_PARAMUNUSED; FLG_VARUNUSED; FLG_CONSTUNUSED; FLG_ENUMMEMUNUSED;
  FLG_NOEFFECT; FLG_EXPORTHEADER; FLG_EXPORTHEADERVAR; FLG_RETVALOTHER; FLG_RETVALBOOL; FLG_RETVALINT;
  FLG_SPECUNDEF; FLG_IMPCHECKMODINTERNALS; FLG_DECLUNDEF; FLG_INCONDEFS; FLG_INCONDEFSLIB;
  FLG_MISPLACEDSHAREQUAL; FLG_REDUNDANTSHAREQUAL; FLG_NUMABSTRACTPRINT; FLG_MATCHFIELDS; FLG_MACROPARAMS;
  FLG_MACROASSIGN; FLG_DECLPARAMMATCH; FLG_FCNDEREF; FLG_FIRSTCASE; FLG_SEFPARAMS; FLG_SEFUNSPEC;
  FLG_MACROSTMT; FLG_MACROPARENS; FLG_MACROCONSTDECL; FLG_MACROFCNDECL; FLG_MACROREDEF; FLG_INFLOOPS;
  FLG_INFLOOPSUNCON; FLG_UNREACHABLE; FLG_NORETURN; FLG_CASEBREAK; FLG_MISSCASE; FLG_EVALORDER; FLG_USEDEF;
  FLG_NESTEDEXTERN; FLG_MULTITHREADED; FLG_PORTABILITY; FLG_SUPERUSER; FLG_IMPLEMENTATIONOPTIONAL;
  FLG_BUFFEROVERFLOWHIGH; FLG_NULLSTATE; FLG_NULLDEREF; FLG_NULLASSIGN; FLG_NULLPASS; FLG_NULLRET;
  FLG_ALLOCMISMATCH; FLG_COMPDEF; FLG_COMPMEMPASS; FLG_UNIONDEF; FLG_RETSTACK; FLG_EXPOSETRANS;
  FLG_OBSERVERTRANS; FLG_DEPENDENTTRANS; FLG_NEWREFTRANS; FLG_ONLYTRANS; FLG_OWNEDTRANS; FLG_FRESHTRANS;
  FLG_SHAREDTRANS; FLG_TEMPTRANS; FLG_KEPTTRANS; FLG_REFCOUNTTRANS; FLG_STATICTRANS; FLG_UNKNOWNTRANS;
  FLG_STATICINITTRANS; FLG_UNKNOWNINITTRANS; FLG_KEEPTRANS; FLG_IMMEDIATETRANS; FLG_ONLYUNQGLOBALTRANS;
  FLG_USERELEASED; FLG_ALIASUNIQUE; FLG_MAYALIASUNIQUE; FLG_MUSTFREEONLY; FLG_MUSTFREEFRESH; FLG_MUSTDEFINE;
  FLG_GLOBSTATE; FLG_COMPDESTROY; FLG_MUSTNOTALIAS; FLG_MEMIMPLICIT; FLG_BRANCHSTATE; FLG_NULLPOINTERARITH;
  FLG_SHADOW; FLG_DEPARRAYS; FLG_REDECL; FLG_READONLYSTRINGS; FLG_READONLYTRANS; FLG_LOOPLOOPBREAK;
  FLG_SWITCHLOOPBREAK; FLG_MODGLOBS; FLG_CHECKSTRICTGLOBALS; FLG_IMPCHECKEDSPECGLOBALS; FLG_MACROMATCHNAME;
  FLG_WARNLINTCOMMENTS; FLG_INCLUDENEST; FLG_ISORESERVED; FLG_CPPNAMES; FLG_NOPARAMS; FLG_IFEMPTY;
  FLG_WHILEEMPTY; FLG_REALCOMPARE; FLG_REALRELATECOMPARE; FLG_BOOLOPS; FLG_SHIFTNEGATIVE;
  FLG_SHIFTIMPLEMENTATION; FLG_BUFFEROVERFLOWHIGH; FLG_BUFFEROVERFLOW].

(** src/context.c 1246–1384. *)
Definition strict_flags : list Z := [
  FLG_ABSTRACTCOMPARE; FLG_CHECKSTRICTGLOBALIAS; FLG_NUMABSTRACTCAST; FLG_CHECKEDGLOBALIAS;
  FLG_CHECKMODGLOBALIAS; FLG_UNCHECKEDGLOBALIAS; FLG_MODFILESYSTEM; FLG_MACROMATCHNAME; FLG_FORMATCONST;
  FLG_NUMABSTRACTPRINT; FLG_STRINGLITNOROOM; FLG_STRINGLITNOROOMFINALNULL; FLG_STRINGLITSMALLER;
  FLG_STATETRANSFER; FLG_STATEMERGE; FLG_MACROUNDEF; FLG_MUTREP; FLG_MUSTMOD; FLG_ALLGLOBALS; FLG_IMPTYPE;
  FLG_MODNOMODS; FLG_MODGLOBSUNSPEC; FLG_MODSTRICTGLOBSUNSPEC; FLG_GLOBUNSPEC; FLG_SIZEOFTYPE;
  FLG_EXPORTHEADER; FLG_EXPORTHEADERVAR; FLG_NOPARAMS; FLG_OLDSTYLE; FLG_EXITARG; FLG_RETSTACK; FLG_FCNDEREF;
  FLG_ONLYUNQGLOBALTRANS; FLG_GLOBALSIMPMODIFIESNOTHING; FLG_PREDBOOLOTHERS; FLG_PREDBOOLPTR;
  FLG_PREDBOOLINT; FLG_INTERNALGLOBS; FLG_INTERNALGLOBSNOGLOBS; FLG_USEALLGLOBS; FLG_RETALIAS; FLG_MODGLOBS;
  FLG_MODGLOBSUNSPEC; FLG_MODGLOBSUNCHECKED; FLG_RETEXPOSE; FLG_ASSIGNEXPOSE; FLG_CASTEXPOSE;
  FLG_NOEFFECTUNCON; FLG_EVALORDERUNCON; FLG_FUNCUNUSED; FLG_EXPORTITER; FLG_EXPORTCONST; FLG_TYPEUNUSED;
  FLG_FIELDUNUSED; FLG_PARAMUNUSED; FLG_TOPUNUSED; FLG_CONSTUNUSED; FLG_ENUMMEMUNUSED; FLG_VARUNUSED;
  FLG_NULLPOINTERARITH; FLG_POINTERARITH; FLG_PTRNUMCOMPARE; FLG_BOOLCOMPARE; FLG_UNSIGNEDCOMPARE;
  FLG_NOEFFECT; FLG_RETVALINT; FLG_RETVALBOOL; FLG_RETVALOTHER; FLG_ISORESERVED; FLG_ISORESERVEDLOCAL;
  FLG_CPPNAMES; FLG_RETVALBOOL; FLG_RETVALINT; FLG_SPECUNDEF; FLG_DECLUNDEF; FLG_STRICTOPS; FLG_INCONDEFS;
  FLG_MISPLACEDSHAREQUAL; FLG_REDUNDANTSHAREQUAL; FLG_INCONDEFSLIB; FLG_MATCHFIELDS; FLG_EXPORTMACRO;
  FLG_EXPORTVAR; FLG_EXPORTFCN; FLG_EXPORTTYPE; FLG_EXPORTLOCAL; FLG_MACROPARAMS; FLG_MACROASSIGN;
  FLG_SEFPARAMS; FLG_SEFUNSPEC; FLG_MACROSTMT; FLG_MACROPARENS; FLG_MACROFCNDECL; FLG_MACROCONSTDECL;
  FLG_MACROREDEF; FLG_MACROEMPTY; FLG_INFLOOPS; FLG_INFLOOPSUNCON; FLG_UNREACHABLE; FLG_NORETURN;
  FLG_CASEBREAK; FLG_MISSCASE; FLG_USEDEF; FLG_EVALORDER; FLG_MODUNCON; FLG_MODUNCONNOMODS;
  FLG_MODINTERNALSTRICT; FLG_MODOBSERVERUNCON; FLG_NESTEDEXTERN; FLG_FIRSTCASE; FLG_MULTITHREADED;
  FLG_PORTABILITY; FLG_SUPERUSER; FLG_IMPLEMENTATIONOPTIONAL; FLG_BUFFEROVERFLOWHIGH; FLG_BUFFEROVERFLOW;
  FLG_TOCTOU; FLG_NULLSTATE; FLG_NULLDEREF; FLG_NULLASSIGN; FLG_NULLPASS; FLG_NULLRET; FLG_ALLOCMISMATCH;
  FLG_COMPDEF; FLG_COMPMEMPASS; FLG_UNIONDEF; FLG_BOUNDSREAD; FLG_BOUNDSWRITE; FLG_LIKELYBOUNDSREAD;
  FLG_LIKELYBOUNDSWRITE; FLG_CHECKPOST; FLG_EXPOSETRANS; FLG_OBSERVERTRANS; FLG_DEPENDENTTRANS;
  FLG_NEWREFTRANS; FLG_ONLYTRANS; FLG_OWNEDTRANS; FLG_FRESHTRANS; FLG_SHAREDTRANS; FLG_TEMPTRANS;
  FLG_KEPTTRANS; FLG_REFCOUNTTRANS; FLG_STATICTRANS; FLG_UNKNOWNTRANS; FLG_KEEPTRANS; FLG_IMMEDIATETRANS;
  FLG_STATICINITTRANS; FLG_UNKNOWNINITTRANS; FLG_USERELEASED; FLG_ALIASUNIQUE; FLG_MAYALIASUNIQUE;
  FLG_MUSTFREEONLY; FLG_MUSTFREEFRESH; FLG_MUSTDEFINE; FLG_GLOBSTATE; FLG_COMPDESTROY; FLG_MUSTNOTALIAS;
  FLG_MEMIMPLICIT; FLG_BRANCHSTATE; FLG_DECLPARAMNAME; FLG_DECLPARAMMATCH; FLG_SHADOW; FLG_DEPARRAYS;
  FLG_STRICTDESTROY; FLG_STRICTUSERELEASED; FLG_STRICTBRANCHSTATE; FLG_REDECL; FLG_READONLYSTRINGS;
  FLG_READONLYTRANS; FLG_LOOPLOOPBREAK; FLG_LOOPSWITCHBREAK; FLG_SWITCHLOOPBREAK; FLG_SWITCHSWITCHBREAK;
  FLG_LOOPLOOPCONTINUE; FLG_CHECKSTRICTGLOBALS; FLG_IMPCHECKEDSPECGLOBALS; FLG_ALLGLOBALS;
  FLG_IMPCHECKEDSTRICTGLOBALS; FLG_IMPCHECKEDSTRICTSTATICS; FLG_IMPCHECKEDSTRICTSPECGLOBALS;
  FLG_IMPCHECKMODINTERNALS; FLG_WARNMISSINGGLOBALS; FLG_WARNMISSINGGLOBALSNOGLOBS; FLG_WARNLINTCOMMENTS;
  FLG_ISORESERVEDLOCAL; FLG_INCLUDENEST; FLG_STRINGLITERALLEN; FLG_NUMSTRUCTFIELDS; FLG_NUMENUMMEMBERS;
  FLG_CONTROLNESTDEPTH; FLG_FORBLOCK; FLG_WHILEBLOCK; FLG_FOREMPTY; FLG_WHILEEMPTY; FLG_IFEMPTY; FLG_IFBLOCK;
  FLG_ELSEIFCOMPLETE; FLG_REALCOMPARE; FLG_BOOLOPS; FLG_REALRELATECOMPARE; FLG_SYSTEMDIRERRORS;
  FLG_UNUSEDSPECIAL; FLG_SHIFTNEGATIVE; FLG_SHIFTIMPLEMENTATION; FLG_BITWISEOPS; FLG_BUFFEROVERFLOWHIGH;
  FLG_BUFFEROVERFLOW].
