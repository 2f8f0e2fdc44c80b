(** The goroutines that instrument the files of one directory (lens/astexec.go:311-395): each file has its own, another
    puts the client in; all of them look through the whole directory (lens/asttweak.go:208-309, 1167-1204).
    Definitions only; what is inserted is in InstrModel.v, writing and restoring files in ModifierModel.v. *)
From Verif Require Import Base Maps InstrModel TemplateModel.
Local Open Scope nat_scope.

(** ** Files *)
(** What the type checker sees of a file (lens/asttweak.go:1176-1200): package clause, the names it declares for the package, the
    unqualified names it uses and neither declares nor takes from the universe. *)
Record src := Src { s_pkg : bytes; s_decls : list bytes; s_uses : list bytes }.
(** The text of a file: os.WriteFile empties a file and then fills it (lens/asttweak.go:151, 237, 244); readers in between
    get nothing.  Half-filled files are left out. *)
Inductive text := Cut | Whole (s : src).
(** The files of a directory (os.ReadDir, lens/asttweak.go:275), all of which parse when whole. *)
Definition files := amap text.
(** The two steps of os.WriteFile (lens/asttweak.go:151, 237, 244). *)
Inductive write := WCut (f : bytes) | WFill (f : bytes) (s : src).
(** lens/asttweak.go:151, 237, 244. *)
Definition apply (d : files) (w : write) : files :=
  match w with WCut f => mset f Cut d | WFill f s => mset f (Whole s) d end.
(** The directory after the first [t] of the writes of all goroutines, in the order in which they happen (lens/astexec.go:357, 382, 392-394). *)
Definition dir_at (d : files) (ws : list write) (t : nat) : files := fold_left apply (firstn t ws) d.

(** ** Looking through the directory *)
Section Look.
(** build.Default.MatchFile without an error (lens/asttweak.go:261-262), by the name and the text. *)
Variable matches : bytes -> text -> bool.
(** One entry of the loop (lens/asttweak.go:280-307); an empty file has no package clause. *)
Definition entry (f : bytes) (t : text) : dentry :=
  DEntry f false true (matches f t) match t with Cut => None | Whole s => Some (s_pkg s) end.
(** os.ReadDir at time [t0], then each file at its own time (lens/asttweak.go:275-307); no file is removed meanwhile. *)
Definition look (d : files) (ws : list write) (t0 : nat) (ts : list nat) : list (bytes * text) :=
  flat_map (fun fi => match mget (fst fi) (dir_at d ws (snd fi)) with Some t => [(fst fi, t)] | None => [] end)
           (combine (mkeys (dir_at d ws t0)) ts).
(** lens/asttweak.go:274-309. *)
Definition entries (l : list (bytes * text)) : list dentry := map (fun ft => entry (fst ft) (snd ft)) l.

(** detectPackageName in InjectASTClient (lens/asttweak.go:225-228, 313-326). *)
Definition detect (l : list (bytes * text)) : option bytes := detect_package (Some (entries l)).
(** The names of the two files (lens/asttweak.go:229, 240). *)
Definition client_file : bytes := B "xx_lens_client_gen.go".
(** lens/asttweak.go:240. *)
Definition api_file : bytes := B "xx_lens_api_gen.go".
(** The names the inserted code uses: sendLensPointStateMessage and lensMonitorFieldSnapshot (lens/asttweak.go:1642, 1682),
    sendLensPointRecoveryMessage (lens/asttweak.go:487). *)
Definition client_names : list bytes := map B ["sendLensPointStateMessage"; "lensMonitorFieldSnapshot"; "sendLensPointRecoveryMessage"]%string.
(** lensMonitorStackFrame, declared in one of the files and used in the other (lens/astapi.go:15, lens/astclient.go:70). *)
Definition frame_name : bytes := B "lensMonitorStackFrame".
(** What InjectASTClient writes (lens/asttweak.go:229-246), or its error. *)
Definition inject_writes (l : list (bytes * text)) : option (list write) :=
  match detect l with
  | Some n => Some [WCut client_file; WFill client_file (Src n client_names [frame_name]); WCut api_file; WFill api_file (Src n [frame_name] [])]
  | None => None
  end.

(** ** Type information *)
(** A panic, nil, or the files the information was made from (lens/asttweak.go:1167-1204). *)
Inductive tinfo := TPanic | TNil | TInfo (fs : list src).
(** types.Config.Check without an error (lens/asttweak.go:1196-1203). *)
Variable check : list src -> bool.
(** The text a file had when it was read (lens/asttweak.go:294). *)
Definition text_of (f : bytes) (l : list (bytes * text)) : src := match mget f l with Some (Whole s) => s | _ => Src [] [] [] end.
(** buildTypesInfo (lens/asttweak.go:1167-1204): [target] and its file; [same]: the path of the target is as filepath.Join gives it
    (1184).  The order of the files is that of a Go map, here of the directory. *)
Definition types_info (file : bytes) (same : bool) (target : src) (l : list (bytes * text)) : tinfo :=
  match parse_dir (entries l) [] with
  | None | Some [] => TNil
  | Some pkgs =>
    match mget (s_pkg target) pkgs with
    | None => TPanic
    | Some names =>
      let fs := map (fun f => if same && beq f file then target else text_of f l) names in
      if check fs then TInfo fs else TNil
    end
  end.

(** ** The functions of one file *)
(** The file in memory after return and panic points were put into one more function (lens/astexec.go:325, 344,
    lens/asttweak.go:547-681); it is committed after the last (lens/astexec.go:357). *)
Definition pointed (s : src) : src := Src (s_pkg s) (s_decls s) (s_uses s ++ client_names).
(** The type information for each function of a file in turn; [ls]: what each look gives (lens/astexec.go:319-355, lens/asttweak.go:123-128, 548). *)
Fixpoint infos (file : bytes) (same : bool) (s : src) (ls : list (list (bytes * text))) : list tinfo :=
  match ls with [] => [] | l :: ls' => types_info file same s l :: infos file same (pointed s) ls' end.
End Look.

(** ** Whether a returned identifier or literal needs a temporary *)
(** types.Info of the identifier (lens/asttweak.go:1401-1410). *)
Inductive ety := EUntyped | ETyped | EAliased | EParam | EElse.
(** The result type as written (lens/asttweak.go:1417-1428): an identifier with its name and what it resolves to in the file
    ([Some true]: a field, that is a type parameter). *)
Inductive rty := RIface | RIdent (x : bytes) (obj : option bool) | RElse.
(** strings.ToUpper(x) == x (lens/asttweak.go:1421): no lower case letter; only ASCII. *)
Definition no_lower (x : bytes) : bool := forallb (fun c => negb ((97 <=? N_of_ascii c)%N && (N_of_ascii c <=? 122)%N)) x.
(** lens/asttweak.go:1398-1429: with information, of the identifier and whether the result type is an interface, each if the
    information has the node; or without. *)
Definition need_ident (inf : option (option ety * option bool)) (rt : rty) : bool :=
  match inf with
  | Some (et, iface) =>
    match iface with Some true => true | _ => match et with Some (EUntyped | EAliased | EParam) => true | _ => false end end
  | None => match rt with RIface => true | RIdent x None => no_lower x | RIdent _ (Some b) => b | RElse => false end
  end.
(** lens/asttweak.go:1449-1459. *)
Definition need_lit (inf : option (option bool)) (rt : rty) : bool :=
  match inf with
  | Some iface => match iface with Some true => true | _ => false end
  | None => match rt with RIface => true | _ => false end
  end.
