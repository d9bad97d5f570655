(** Model of the command line (neorl/scripts.py:79-200), of the check of TUNE cards (neorl/parsers/TuneChecker.py:27-95)
    and of the processes that are started (neorl/utils/multiproc.py:105-151).  Input files and the checks of the other
    cards are those of IP_Model. *)
From Coq Require Import Ascii String List Arith ZArith Bool.
Import ListNotations.
Require Import Verif.IP_Model.
Open Scope list_scope. Open Scope nat_scope.

Section Main.
  Variable isspace : ascii -> bool.
  Context {D F : Type}.
  Variable to_float : text -> option F.
  Variable trunc : F -> option Z.
  Variable dict_text : D -> text.
  Variable cpu_count : Z.
  Variable default : text -> text -> option (@val D F).
  (** os.path.exists. *)
  Variable exists_path : text -> bool.

  (** ** TuneChecker *)
  (** '{' in item or '}' in item (51). *)
  Definition has_brace (k : text) : bool := existsb (fun c => Ascii.eqb c "{" || Ascii.eqb c "}") k.
  (** The conversions (58-70): as for the other cards, but bool(...) of a text is true unless it is empty (a
      dictionary, which a TUNE card has only by an item env_data, is not looked into). *)
  Definition tune_convert (k : kind) (v : @value D) : option (@val D F) :=
    match k, v with
    | KBool, Raw s => Some (VBool (negb (teqb s [])))
    | KBool, Data _ => Some (VBool true)
    | _, _ => convert isspace to_float trunc dict_text k v
    end.
  (** What a name has after the loop: the text as it was (names with braces), or the value. *)
  Inductive item := Hole (v : @value D) | Val (x : @val D F).
  Fixpoint tune_items (d : list (text * @value D)) : option (list (text * item)) :=
    match d with
    | [] => Some []
    | (k, v) :: rest =>
        match (if has_brace k then Some (Hole v) else match dget k tune_table with None => None | Some (_, kd) => option_map Val (tune_convert kd v) end), tune_items rest with
        | Some x, Some u => Some ((k, x) :: u)
        | _, _ => None
        end
    end.
  (** Required names (76-82) and external files (88-91). *)
  Definition required_ok (p : list (text * item)) : bool := forallb (fun x => has (fst x) p || match fst (snd x) with Req => false | _ => true end) tune_table.
  Definition files_ok (p : list (text * item)) : bool := match dget (t "extfiles") p with Some (Val (VStrs l)) => forallb exists_path l | _ => true end.
  Definition tune_check (d : list (text * @value D)) : option (list (text * item)) :=
    match tune_items d with Some p => if required_ok p && files_ok p then Some p else None | None => None end.
  (** The dictionary returned (34-36, 84-85, 93-95): defaults, overwritten, without None, with flag. *)
  Definition tune_final (p : list (text * item)) (n : text) : option item :=
    if teqb n (t "flag") then Some (Val (VBool true))
    else match dget n p with Some x => Some x | None => option_map Val (default (t "TUNE") n) end.

  (** ** run_all (105-151): a process for each card whose flag is true, in this order; none is waited for. *)
  Definition flagged (algs : list (text * list (text * @val D F))) (c : text) : bool :=
    match dget c algs with Some p => match final default c p (t "flag") with Some (VBool b) => b | _ => false end | None => false end.
  Definition run_all (algs : list (text * list (text * @val D F))) : list text := filter (flagged algs) algorithms.

  (** ** main *)
  Record options := Options { o_input : option text; o_check : option text; o_test : bool; o_example : bool }.
  Inductive act := Help | ShowExample | Tests | ReadFile (path : text) | Generate (method : text) | RunCases | LogFiles (cards : list text) | Start (card : text) | OpenEnv.
  (** sys.exit(0), an exception, or the end of main. *)
  Inductive ending := Leaves | Raises | Ends.
  (** Whether an action that can fail succeeds. *)
  Variable succeeds : act -> bool.
  Definition andthen (a : act) (k : list act * ending) : list act * ending := if succeeds a then (a :: fst k, snd k) else ([a], Raises).
  Definition text_of (x : option item) : text := match x with Some (Val (VStr s)) => s | _ => [] end.
  Definition methods : list text := map t ["gridtune"; "randtune"; "gatune"; "bayestune"; "estune"]%string.
  (** The tuning branch (137-165). *)
  Definition tune_main (u : list (text * @value D)) : list act * ending :=
    match tune_check u with
    | None => ([], Raises)
    | Some p =>
        let m := text_of (tune_final p (t "method")) in
        if negb (mem m methods) then ([], Raises)
        else andthen (Generate m)
               (match tune_final p (t "mode") with
                | None => andthen RunCases ([], Ends)
                | Some _ =>
                    let md := text_of (tune_final p (t "mode")) in
                    if teqb md (t "run") then andthen RunCases ([], Ends) else if teqb md (t "test") then ([], Ends) else ([], Raises)
                end)
    end.
  (** The regular branch (167-196). *)
  Definition plain_main (g : list (text * @value D)) (algs : list (text * list (text * @value D))) : list act * ending :=
    match setup isspace to_float trunc dict_text cpu_count default g algs with
    | None => ([], Raises)
    | Some (g', a) =>
        let md := match final default (t "GENERAL") g' (t "neorl_mode") with Some (VStr s) => s | _ => [] end in
        andthen (LogFiles (map fst a))
          (if teqb md (t "run") then (map Start (run_all a), Ends)
           else if teqb md (t "test") then ([], Ends)
           else if teqb md (t "env_only") then andthen OpenEnv ([], Ends)
           else ([], Raises))
    end.
  (** [files]: what the parser makes of a path (none: it raises). *)
  Definition main (o : options) (files : text -> option (list (text * @value D) * option (list (text * @value D)) * list (text * list (text * @value D)))) : list act * ending :=
    if o_example o then ([ShowExample], Leaves)
    else if o_test o then ([Tests], Leaves)
    else match o_input o with
         | None | Some [] => ([Help], Leaves)
         | Some path =>
             match files path with
             | None => ([ReadFile path], Raises)
             | Some (g, Some u, algs) => (ReadFile path :: fst (tune_main u), snd (tune_main u))
             | Some (g, None, algs) => (ReadFile path :: fst (plain_main g algs), snd (plain_main g algs))
             end
         end.
End Main.
Arguments Hole {D F}. Arguments Val {D F}.
