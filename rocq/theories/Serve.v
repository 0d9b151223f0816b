(** The MCP server: commands/mcp.go, and the part of the tools that decodes arguments
    (tools/edit_file.go, tools/texted_eval.go, tools/texted_doc.go).  The library
    github.com/mark3labs/mcp-go v0.31.0 is not part of /repo: its registry of tools, its
    dispatch and its argument helpers are modelled from knowledge of that library.  The JSON
    transport is not modelled: a request is a tool name and decoded arguments.  Requests are
    answered one after the other. *)
From Coq Require Import ZArith NArith List Bool Strings.Byte.
From Verif Require Import Base Float Ext Utf8 Strconv Values Buffer Builtins Eval Parser Json Writer Files Tools Docs DocsData.
Import ListNotations.
Open Scope Z_scope.

(** ** Arguments (mcp-go: CallToolRequest.GetArguments, a Go map; [None]: no such key, or no
    arguments object at all) *)
Definition arguments := str -> option json.

(** mcp-go: CallToolRequest.RequireString *)
Definition require_string (E : Ext) (a : arguments) (key : str) : res str :=
  match a key with
  | Some (JStr s) => Ok s
  | Some _ => Err (bs "argument " ++ quote E key ++ bs " is not a string")
  | None => Err (bs "required argument " ++ quote E key ++ bs " not found")
  end.

(** mcp-go: CallToolRequest.RequireStringSlice *)
Fixpoint all_strings (E : Ext) (key : str) (i : Z) (l : list json) : res (list str) :=
  match l with
  | [] => Ok []
  | JStr s :: l' =>
    match all_strings E key (i + 1) l' with
    | Ok r => Ok (s :: r)
    | Err e => Err e
    | Crash c => Crash c
    end
  | _ :: _ => Err (bs "item " ++ itoa i ++ bs " in argument " ++ quote E key ++ bs " is not a string")
  end.
Definition require_strings (E : Ext) (a : arguments) (key : str) : res (list str) :=
  match a key with
  | Some (JArr l) => all_strings E key 0 l
  | Some _ => Err (bs "argument " ++ quote E key ++ bs " is not a string slice")
  | None => Err (bs "required argument " ++ quote E key ++ bs " not found")
  end.

(** mcp-go: CallToolRequest.GetString *)
Definition get_string (a : arguments) (key default : str) : str :=
  match a key with Some (JStr s) => s | _ => default end.

(** strconv.ParseBool *)
Definition parse_bool (s : str) : option bool :=
  if existsb (str_eqb s) [bs "1"; bs "t"; bs "T"; bs "TRUE"; bs "true"; bs "True"] then Some true
  else if existsb (str_eqb s) [bs "0"; bs "f"; bs "F"; bs "FALSE"; bs "false"; bs "False"] then Some false
  else None.

(** mcp-go: CallToolRequest.GetBool; numbers arrive as float64 *)
Definition get_bool (a : arguments) (key : str) (default : bool) : bool :=
  match a key with
  | Some (JBool b) => b
  | Some (JStr s) => match parse_bool s with Some b => b | None => default end
  | Some (JNum f) => match f with S754_zero _ => false | _ => true end
  | _ => default
  end.

(** ** The tools *)
(** tools/edit_file.go:37-48, the argument checks of EditFileHandler with their messages *)
Definition serve_edit (E : Ext) (os : OS) (fuel : nat) (a : arguments) (w : world)
  : option (res tool_result * world) :=
  match require_string E a (bs "script") with
  | Err e => Some (Ok (ToolError (bs "script parameter required: " ++ e)), w)
  | Crash c => Some (Crash c, w)
  | Ok script =>
    match require_strings E a (bs "files") with
    | Err e => Some (Ok (ToolError (bs "files parameter required: " ++ e)), w)
    | Crash c => Some (Crash c, w)
    | Ok files =>
      edit_file_handler E os fuel
        (mkEditRequest (Some script) (Some files) (get_bool a (bs "loopUntilError") false)) w
    end
  end.

(** tools/texted_eval.go:41-55, the argument checks of TextedEvalHandler with their messages *)
Definition serve_eval (E : Ext) (a : arguments) : res tool_result :=
  match require_string E a (bs "input") with
  | Err e => Ok (ToolError (bs "input parameter required: " ++ e))
  | Crash c => Crash c
  | Ok input =>
    match require_string E a (bs "script") with
    | Err e => Ok (ToolError (bs "script parameter required: " ++ e))
    | Crash c => Crash c
    | Ok script =>
      eval_handler E (mkEvalRequest (Some input) (Some script) (Some (get_string a (bs "output") (bs "buffer"))))
    end
  end.

(** tools/texted_doc.go:37-40 *)
Definition serve_doc (o : map_orders) (a : arguments) : tool_result :=
  doc_handler o registered (get_string a (bs "function_name") []) (get_string a (bs "category") [])
    (get_bool a (bs "verbose") false).

(** ** The server *)
Inductive tool := TEdit | TEval | TDoc.

(** tools/edit_file.go:16-20, texted_eval.go:20-24, texted_doc.go:17-21 *)
Definition tool_name (prefix base : str) : str :=
  match prefix with
  | [] => base
  | _ => prefix ++ base
  end.

(** mcp-go: MCPServer.AddTool, a Go map keyed by the name: a later tool of the same name
    replaces an earlier one *)
Definition tool_table := list (str * tool).
Definition add_tool (t : tool_table) (name : str) (x : tool) : tool_table :=
  (name, x) :: filter (fun e => negb (str_eqb (fst e) name)) t.
Fixpoint find_tool (t : tool_table) (name : str) : option tool :=
  match t with
  | [] => None
  | (n, x) :: t' => if str_eqb n name then Some x else find_tool t' name
  end.

(** commands/mcp.go:40-54 runMCPServer *)
Definition server (prefix : str) : tool_table :=
  add_tool
    (add_tool
      (add_tool [] (tool_name prefix (bs "edit_file")) TEdit)
      (tool_name prefix (bs "texted_eval")) TEval)
    (tool_name prefix (bs "texted_doc")) TDoc.

(** mcp-go: MCPServer.handleListTools, the names in order *)
Definition list_tools (prefix : str) : list str := sort_by (fun s => s) (map fst (server prefix)).

(** mcp-go: a tools/call request; the map orders are those Go happens to use meanwhile *)
Record request := mkRequest {
  r_tool : str;
  r_args : arguments;
  r_orders : map_orders
}.
Inductive response :=
| Protocol (e : str)           (* a JSON-RPC error *)
| Answer (r : tool_result).

(** mcp-go: MCPServer.handleToolCall.  [None]: still running (loopUntilError) after [fuel]
    rounds.  There is no recovery from panics: [Crash] ends the server. *)
Definition serve_call (E : Ext) (os : OS) (fuel : nat) (prefix : str) (q : request) (w : world)
  : option (res response * world) :=
  let answer (x : option (res tool_result * world)) :=
    match x with
    | Some (Ok r, w') => Some (Ok (Answer r), w')
    | Some (Err e, w') => Some (Ok (Protocol e), w')
    | Some (Crash c, w') => Some (Crash c, w')
    | None => None
    end in
  match find_tool (server prefix) (r_tool q) with
  | None => Some (Ok (Protocol (bs "tool '" ++ r_tool q ++ bs "' not found: tool not found")), w)
  | Some TEdit => answer (serve_edit E os fuel (r_args q) w)
  | Some TEval => answer (Some (serve_eval E (r_args q), w))
  | Some TDoc => answer (Some (Ok (serve_doc (r_orders q) (r_args q)), w))
  end.

(** mcp-go: ServeStdio; the answers given, and what ended the server before the end of its
    input, if anything did *)
Fixpoint serve_all (E : Ext) (os : OS) (fuel : nat) (prefix : str) (qs : list request) (w : world)
  : option (list response * option crash * world) :=
  match qs with
  | [] => Some ([], None, w)
  | q :: qs' =>
    match serve_call E os fuel prefix q w with
    | None => None
    | Some (Crash c, w') => Some ([], Some c, w')
    | Some (Err e, w') =>
      match serve_all E os fuel prefix qs' w' with
      | Some (rs, k, w'') => Some (Protocol e :: rs, k, w'')
      | None => None
      end
    | Some (Ok r, w') =>
      match serve_all E os fuel prefix qs' w' with
      | Some (rs, k, w'') => Some (r :: rs, k, w'')
      | None => None
      end
    end
  end.
