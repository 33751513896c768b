(** Model of the settings of the client: zkclient/settings.go and the configuration
    file that it writes itself, zkclient/zkclient.conf.go.

    Left out: the flags -version and -export, which end the program.  homedir.Dir is
    the argument [home], filepath.Join is [join], and strings.ToLower [tolower]; ttk.Color
    is [ansi].  Unicode white space is left out as in IniModel.v. *)
From Verif Require Import Base IniModel WelcomeModel.
Local Open Scope N_scope.

(** ini.LoadFile (go-ini) reads line by line into a map that is returned along with the
    error: the tables before the first line that is neither, and whether there was
    none. *)
Fixpoint load_lines (st : bytes * tables) (ls : list bytes) : tables * bool :=
  match ls with
  | [] => (snd st, true)
  | l :: r => match parse_line st l with
              | Some st' => load_lines st' r
              | None => (snd st, false)
              end
  end.
Definition load (content : bytes) : tables * bool := load_lines ([], []) (lines content).

(** zkclient.conf.go:4-47 [defaultConfigFileContent] *)
Definition default_conf : bytes := concat (map (fun l => l ++ [10]) [
  bs "";
  bs "# root directory for zkclient settings, logs etc";
  bs "root = ~/.zkclient";
  bs "";
  bs "# print certificate fingerprint";
  bs "tlsverbose = yes";
  bs "";
  bs "# annoy user by beeping on incoming messages";
  bs "# beep = yes";
  bs "";
  bs "# Draw separator to show where conversation left off";
  bs "# separator = yes";
  bs "";
  bs "# logging and debug";
  bs "[log]";
  bs "";
  bs "# savehistory saves commands but not text to a history file";
  bs "savehistory = no";
  bs "";
  bs "# timeformat for logging purposes";
  bs "# see https://golang.org/pkg/time/#Time.Format for more details";
  bs "timeformat = 15:04:05";
  bs "";
  bs "# longtimeformat is used when a year/month/day is required.";
  bs "longtimeformat = 2006-01-02 15:04:05";
  bs "";
  bs "# logfile contains log file name location";
  bs "logfile = ~/.zkclient/zkclient.log";
  bs "";
  bs "# enable/disable debug output to log";
  bs "debug = no";
  bs "";
  bs "# launch go's profiler on specified url";
  bs "# requires debug = yes";
  bs "profiler = 127.0.0.1:6061";
  bs "";
  bs "# Valid ui colors: na, black, red, green, yellow, blue, magenta, cyan and white";
  bs "# Valid atttributes are: none, underline and bold";
  bs "# format is: attribute:foreground:background";
  bs "[ui]";
  bs "nickcolor = bold:na:na";
  bs "gcothercolor = bold:green:na";
  bs "pmothercolor = bold:cyan:na" ]).

(** settings.go:28-50 *)
Record settings := mkSettings {
  s_root : bytes; s_tls : bool; s_beep : bool; s_separator : bool;
  s_history : bool; s_logfile : bytes; s_time : bytes; s_longtime : bytes; s_debug : bool; s_profiler : bytes;
  s_nick : bytes; s_gc : bytes; s_pm : bytes }.

(** The colours and attributes of ttk (a library), as settings.go:53-74
    and 86-99 use them; the attributes are separate bits. *)
Inductive colour := NA | Black | Red | Green | Yellow | Blue | Magenta | Cyan | White.
Record attrs := mkAttrs { a_bold : bool; a_underline : bool; a_reverse : bool }.

(** strings.Split with a separator of one byte *)
Fixpoint split (c : N) (s : bytes) : list bytes :=
  match s with
  | [] => [[]]
  | x :: r => if x =? c then [] :: split c r
              else match split c r with
                   | l :: ls => (x :: l) :: ls
                   | [] => [[x]]
                   end
  end.

Section Conf.
Variables (home : bytes) (join : bytes -> bytes -> bytes) (tolower : bytes -> bytes) (ansi : attrs -> colour -> colour -> option bytes).

(** homedir.Expand (mitchellh/go-homedir) *)
Definition expand (p : bytes) : option bytes :=
  match p with
  | 126 :: [] => Some (join home [])
  | 126 :: c :: r => if (c =? 47) || (c =? 92) then Some (join home (c :: r)) else None
  | _ => Some p
  end.

(** settings.go:52-77 [textToColor] *)
Definition text_to_color (s : bytes) : option colour :=
  let l := tolower s in
  if eqb l (bs "na") then Some NA
  else if eqb l (bs "black") then Some Black
  else if eqb l (bs "red") then Some Red
  else if eqb l (bs "green") then Some Green
  else if eqb l (bs "yellow") then Some Yellow
  else if eqb l (bs "blue") then Some Blue
  else if eqb l (bs "magenta") then Some Magenta
  else if eqb l (bs "cyan") then Some Cyan
  else if eqb l (bs "white") then Some White
  else None.

(** settings.go:86-100, the loop over the attributes *)
Fixpoint attributes (l : list bytes) (a : attrs) : option attrs :=
  match l with
  | [] => Some a
  | k :: r =>
      let w := tolower k in
      if eqb w (bs "bold") then attributes r (mkAttrs true (a_underline a) (a_reverse a))
      else if eqb w (bs "underline") then attributes r (mkAttrs (a_bold a) true (a_reverse a))
      else if eqb w (bs "reverse") then attributes r (mkAttrs (a_bold a) (a_underline a) true)
      else None
  end.

(** settings.go:79-111 [colorToAnsi] *)
Definition color_to_ansi (s : bytes) : option bytes :=
  match split 58 s with
  | [a; f; b] =>
      obind (attributes (split 44 (tolower a)) (mkAttrs false false false)) (fun a' =>
      obind (text_to_color f) (fun f' =>
      obind (text_to_color b) (fun b' => ansi a' f' b')))
  | _ => None
  end.

(** mainwindow.go:51-60: colours whose errors are ignored *)
Definition bold (c : colour) : bytes := match ansi (mkAttrs true false false) c NA with Some s => s | None => [] end.

(** settings.go:119-140 and zkutil; the strings are those of filepath.Join. *)
Definition default_root : bytes := bs "~/.zkclient".
Definition default_log : bytes := bs "~/.zkclient/zkclient.log".

(** settings.go:199-290, after the file has been read; settings.go:293-310 [iniBool]
    is the same as in the server. *)
Definition text (t : tables) (section key old : bytes) : bytes :=
  match conf_get t section key with Some v => v | None => old end.
Definition color (t : tables) (key old : bytes) : option bytes :=
  match conf_get t (bs "ui") key with Some v => color_to_ansi v | None => Some old end.
Definition read_settings (t : tables) : option settings :=
  obind (expand (text t [] (bs "root") default_root)) (fun root =>
  obind (ini_bool t [] (bs "tlsverbose") true) (fun tls =>
  obind (ini_bool t [] (bs "beep") false) (fun beep =>
  obind (ini_bool t [] (bs "separator") false) (fun sep =>
  obind (ini_bool t (bs "log") (bs "savehistory") false) (fun hist =>
  obind (expand (text t (bs "log") (bs "logfile") default_log)) (fun log =>
  obind (ini_bool t (bs "log") (bs "debug") false) (fun debug =>
  obind (color t (bs "nickcolor") (bold White)) (fun nick =>
  obind (color t (bs "gcothercolor") (bold Green)) (fun gc =>
  obind (color t (bs "pmothercolor") (bold Cyan)) (fun pm =>
  Some (mkSettings root tls beep sep hist log
          (text t (bs "log") (bs "timeformat") (bs "15:04:05"))
          (text t (bs "log") (bs "longtimeformat") (bs "2006-01-02 15:04:05"))
          debug (text t (bs "log") (bs "profiler") (bs "localhost:6061")) nick gc pm))))))))))).

(** What is at the name of the configuration file. *)
Inductive conf_file := Missing | Directory | Unreadable | Content (c : bytes).

(** settings.go:113-291 [ObtainSettings]: [given] is whether the flag -cfg names another file
    than the default one; None ends the program with an error.  Creating the default
    file is assumed to work. *)
Definition obtain (given : bool) (f : conf_file) : option settings :=
  match f with
  | Missing => if given then None else read_settings (fst (load default_conf))
  | Directory => None
  | Unreadable => if given then None else read_settings []
  | Content c => let (t, ok) := load c in if negb ok && given then None else read_settings t
  end.
End Conf.
