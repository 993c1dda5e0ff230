(** The texts of --help and --version: src/params.cpp. *)
From Verif Require Export Model.Params.

(** What is written one after the other: a text, a tab, std::endl, the program name as
    called (params.cpp:153-156), and the macros STROLL_PROGNAME, VERSION, VERSIONDATE. *)
Inductive piece : Type := Lit (s : string) | Tab | Endl | ProgName | Stroll | Version | VersionDate.

(** params.cpp:151-179 *)
Definition usage : list piece :=
  [Lit "Usage: "; ProgName; Lit " [OPTIONS]"; Endl;
   Lit "or: "; ProgName; Lit " [OPTIONS] FILENAME"; Endl;
   Lit "or: "; ProgName; Lit " [OPTIONS] -- INPUT"; Endl;
   Lit "or: "; ProgName; Lit " --diff [OPTIONS] FILENAME FILENAME [FILENAME]"; Endl;
   Lit "Read json input and print it using ncurse"; Endl;
   Endl;
   Lit "if not INPUT nor FILENAME, use standard input"; Endl;
   Endl;
   Lit "When output is redirected to a file or another command, output will be prettyfied unless --compress"; Endl;
   Endl;
   Lit "  FILENAME"; Tab; Tab; Lit "read input from filename instead of stdin"; Endl;
   Lit "  INPUT"; Tab; Tab; Tab; Lit "use this as input instead of stdin"; Endl;
   Lit "  -W "; Tab; Tab; Tab; Lit "consider continuing on non-blocking errors"; Endl;
   Lit "  --ascii"; Tab; Tab; Lit "ignore unicode values"; Endl;
   Lit "  --keep-order"; Tab; Tab; Lit "do not sort objects by key"; Endl;
   Lit "  --color[=MODE]"; Tab; Lit "colorize output, MODE can be never or always (default when ommited)"; Endl;
   Lit "  --compress"; Tab; Lit "if output is redirected, strip unnecessaries characters"; Endl;
   Lit "  --diff-cmd COMMAND ;"; Tab; Lit "Execute command as external diff. All following argument will be passed as parameter to COMMAND until ';' is encountered. The '{}' argument will be replaced by the file path of the prettified input"; Endl;
   Lit "  -v, -version"; Tab; Tab; Lit "display version information"; Endl;
   Lit "  -h, --helph"; Tab; Tab; Lit "show this message and exit"; Endl;
   Endl;
   Lit "Examples:"; Endl;
   Stroll; Lit " f.json"; Tab; Lit "Output f.json's content"; Endl;
   Endl;
   Stroll; Lit " --diff fileA.json fileB.json"; Tab; Lit "compare fileA.json and fileB.json"; Endl;
   Endl;
   Stroll; Lit " --diff-cmd vimdiff {} ';' fileA.json fileB.json"; Tab; Lit "compare fileA.json and fileB.json"; Endl;
   Endl;
   Lit "Report bugs to <isundill@gmail.com>"; Endl].
(** params.cpp:181-192 *)
Definition version : list piece :=
  [Stroll; Lit " (jsonstroller suite) "; Version; Lit " generated on "; VersionDate; Endl;
   Endl;
   Lit "Copyright (C) 2016 Free Software Foundation, Inc."; Endl;
   Lit "License GPLv3+: GNU GPL version 3 or later <http://gnu.org/licenses/gpl.html>."; Endl;
   Lit "This is free software: you are free to change and redistribute it."; Endl;
   Lit "There is NO WARRANTY, to the extent permitted by law."; Endl;
   Endl;
   Lit "Written by isundil <isundill@gmail.com>."; Endl].

(** operator<< to std::cout (params.cpp:151-192) *)
Definition said (prog stroll ver date : bytes) (l : list piece) : bytes :=
  flat_map (fun x => match x with Lit s => str s | Tab => [TAB] | Endl => [LF] | ProgName => prog | Stroll => stroll | Version => ver | VersionDate => date end) l.
