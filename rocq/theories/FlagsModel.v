(** The command line (lens/cmd/flags.go:16-164, cmd/report/main.go:15-37) with the parser of the
    standard library's flag package it relies on.  Definitions only. *)
From Verif Require Import Base Maps UtilModel TemplateModel WorkModel EngineModel ChartModel.

(** ** Package flag *)
(** The values of flags (lens/cmd/flags.go:28-43): flag.String, flag.Int and flag.Bool. *)
Inductive fval := VStr (s : bytes) | VInt (z : Z) | VBool (b : bool).
(** strconv.ParseBool as flag.Bool uses it (lens/cmd/flags.go:42). *)
Definition parse_bool (s : bytes) : option bool :=
  if one_of s ["1"; "t"; "T"; "TRUE"; "true"; "True"]%string then Some true
  else if one_of s ["0"; "f"; "F"; "FALSE"; "false"; "False"]%string then Some false
  else None.
(** Whether a flag may stand without a value (lens/cmd/flags.go:42). *)
Definition is_bool (v : fval) : bool := match v with VBool _ => true | _ => false end.
(** The text from the first "=" that is not the first byte, if any: flag.Parse at
    lens/cmd/flags.go:62. *)
Definition cut_value (s : bytes) : bytes * option bytes :=
  match s with
  | [] => ([], None)
  | c :: s' => match cut_first "="%char s' with Some (a, b) => (c :: a, Some b) | None => (s, None) end
  end.

Section Parse.
(** strconv.ParseInt with base 0 and the size of int (lens/cmd/flags.go:33). *)
Variable parse_int : bytes -> option Z.
(** Set of a flag's value (lens/cmd/flags.go:62): by the kind of its value so far. *)
Definition set_value (old : fval) (s : bytes) : option fval :=
  match old with
  | VStr _ => Some (VStr s)
  | VInt _ => option_map VInt (parse_int s)
  | VBool _ => option_map VBool (parse_bool s)
  end.
(** What is behind the one or two dashes (flag.Parse, lens/cmd/flags.go:62); [None]: not a flag,
    [Some []] only for the terminator. *)
Definition after_dashes (s : bytes) : option bytes :=
  match s with
  | c :: d :: r => if ascii_dec c "-"%char then (if ascii_dec d "-"%char then Some r else Some (d :: r)) else None
  | _ => None
  end.
(** Names a flag argument cannot have (flag.Parse, lens/cmd/flags.go:62). *)
Definition bad_name (n : bytes) : bool :=
  match n with [] => true | c :: _ => if ascii_dec c "-"%char then true else if ascii_dec c "="%char then true else false end.
(** flag.Parse (lens/cmd/flags.go:62): the values and the arguments left; [None] is the exit with
    code 2.  The recursion is over the arguments. *)
Fixpoint parse (st : amap fval) (args : list bytes) : option (amap fval * list bytes) :=
  match args with
  | [] => Some (st, [])
  | s :: rest =>
      match after_dashes s with
      | None => Some (st, args)
      | Some n =>
          if beq s (B "--") then Some (st, rest)
          else if bad_name n then None
          else
            let '(name, value) := cut_value n in
            match mget name st with
            | None => None
            | Some old =>
                match value with
                | Some v => match set_value old v with Some x => parse (mset name x st) rest | None => None end
                | None =>
                    if is_bool old then parse (mset name (VBool true) st) rest
                    else match rest with
                         | [] => None
                         | v :: rest' => match set_value old v with Some x => parse (mset name x st) rest' | None => None end
                         end
                end
            end
      end
  end.
End Parse.

(** Defining a flag (flag.Var, lens/cmd/flags.go:28-59): a panic for a name defined before or one
    that begins with a dash or has an equals sign. *)
Definition define (n : bytes) (v : fval) (t : amap fval) : option (amap fval) :=
  match mget n t with
  | Some _ => None
  | None => if match n with c :: _ => if ascii_dec c "-"%char then true else false | [] => false end || contains "="%char n
            then None else Some (t ++ [(n, v)])
  end.

(** ** ParseFlags *)
(** The standard flags with their defaults (lens/cmd/flags.go:28-43). *)
Definition standard : list (bytes * fval) :=
  [(B "project", VStr []); (B "module", VStr []); (B "modules", VStr []); (B "gomod", VStr []); (B "gowork", VStr []);
   (B "monitorport", VInt 44440); (B "json", VStr (B "modreport.json")); (B "charts", VStr (B "modreport.png"));
   (B "fieldrecurse", VInt 20); (B "fieldlen", VInt 1024); (B "cachemb", VInt 200);
   (B "mutationscope", VStr (B "line")); (B "mutationset", VStr (B "fast")); (B "mutationtests", VStr (B "targeted"));
   (B "tmpcopy", VBool true); (B "timemultiplier", VInt 2)].
(** CustomFlag (lens/cmd/flags.go:16-21). *)
Record custom := Custom { cu_name : bytes; cu_default : fval; cu_type : bytes }.
(** The kinds (lens/cmd/flags.go:48-55). *)
Definition type_of (v : fval) : bytes := match v with VStr _ => B "string" | VInt _ => B "int" | VBool _ => B "bool" end.
(** lens/cmd/flags.go:47-56: a type that is none of the three defines no flag; a default of another
    type panics. *)
Fixpoint define_custom (cs : list custom) (t : amap fval) : option (amap fval) :=
  match cs with
  | [] => Some t
  | c :: cs' =>
      if negb (one_of (cu_type c) ["string"; "int"; "bool"]%string) then define_custom cs' t
      else if negb (beq (type_of (cu_default c)) (cu_type c)) then None
      else match define (cu_name c) (cu_default c) t with None => None | Some t' => define_custom cs' t' end
  end.
(** lens/cmd/flags.go:28-60; [None] is a panic. *)
Definition table (cs : list custom) : option (amap fval) :=
  match define_custom cs standard with
  | None => None
  | Some t => match define (B "h") (VBool false) t with
              | None => None
              | Some t' => define (B "help") (VBool false) t'
              end
  end.

(** The values of the pointers (lens/cmd/flags.go:99-114); a flag has the kind it was defined with. *)
Definition str_of (n : bytes) (st : amap fval) : bytes := match mget n st with Some (VStr s) => s | _ => [] end.
(** lens/cmd/flags.go:99-114. *)
Definition int_of (n : bytes) (st : amap fval) : Z := match mget n st with Some (VInt z) => z | _ => 0%Z end.
(** lens/cmd/flags.go:64, 113. *)
Definition bool_of (n : bytes) (st : amap fval) : bool := match mget n st with Some (VBool b) => b | _ => false end.
(** lens/cmd/flags.go:98-114; the fields that are not set are zero. *)
Definition config_of (st : amap fval) : config :=
  Config (str_of (B "project") st) (str_of (B "module") st) (str_of (B "modules") st) (str_of (B "gomod") st) (str_of (B "gowork") st)
    (int_of (B "monitorport") st) (int_of (B "fieldrecurse") st) (int_of (B "fieldlen") st) (int_of (B "cachemb") st)
    (str_of (B "json") st) (str_of (B "charts") st)
    (str_of (B "mutationscope") st) (str_of (B "mutationset") st) (str_of (B "mutationtests") st)
    (bool_of (B "tmpcopy") st) (int_of (B "timemultiplier") st) [] [] false.
(** strconv.Itoa and strconv.FormatBool (lens/cmd/flags.go:122-124). *)
Definition value_text (v : fval) : bytes :=
  match v with VStr s => s | VInt z => zitoa z | VBool b => if b then B "true" else B "false" end.
(** lens/cmd/flags.go:116-126: the custom flags as text; the map is built in any order. *)
Definition custom_texts (cs : list custom) (st : amap fval) : amap bytes :=
  fold_left (fun m c => if one_of (cu_type c) ["string"; "int"; "bool"]%string
                        then match mget (cu_name c) st with Some v => mset (cu_name c) (value_text v) m | None => m end
                        else m) cs [].
(** setupEnvironment (lens/cmd/flags.go:136-149): GOPATH and GOMODCACHE of the configuration. *)
Definition setup (gopath gomodcache : bytes) : option (bytes * bytes) :=
  match gomodcache with
  | [] => match gopath with [] => None | _ => Some (gopath, join_parts [gopath; B "pkg"; B "mod"]) end
  | _ => Some (gopath, gomodcache)
  end.

(** What ParseFlags may do (lens/cmd/flags.go:25-133). *)
Inductive outcome :=
  | Panics
  | Usage
  | Help
  | Refused
  | Accepted (c : config) (texts : amap bytes) (gopath gomodcache : bytes).
(** ParseFlags (lens/cmd/flags.go:25-133). *)
Definition parse_flags (parse_int : bytes -> option Z) (cs : list custom) (gopath gomodcache : bytes) (args : list bytes) : outcome :=
  match table cs with
  | None => Panics
  | Some t =>
      match parse parse_int t args with
      | None => Usage
      | Some (st, _) =>
          if bool_of (B "h") st || bool_of (B "help") st then Help
          else
            let c := config_of st in
            if (empty (c_module c) && empty (c_modules c) && empty (c_gomod c) && empty (c_gowork c)) || empty (c_project c) then Refused
            else if negb (empty (c_gomod c)) && negb (empty (c_gowork c)) then Refused
            else match setup gopath gomodcache with
                 | None => Refused
                 | Some (p, m) => Accepted c (custom_texts cs st) p m
                 end
      end
  end.

(** ** The chart command *)
(** cmd/report/main.go:15-37: the file of the picture, and the picture: always a PNG
    (lens/report.go:346-350), at first 768 high. *)
Definition report_table : amap fval := [(B "json", VStr (B "modreport.json")); (B "charts", VStr (B "modreport.png"))].
(** cmd/report/main.go:29-35. *)
Definition report_picture (draw : pkind -> Z -> option (Z * option bytes)) (path : bytes) : option (bytes * (pkind * bytes)) :=
  match snd (render (draw PNG) 768) with Some b => Some (path, (PNG, b)) | None => None end.
