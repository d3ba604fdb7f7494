(** Model of /repo/colorschemes.py and of the colour defaults of /repo/causetplotting.py:21-39.

    A Python dict is the list of its items in insertion order.  Values of plot parameters
    are strings, booleans, numbers or lists of numbers. *)
From Verif Require Import Base.
From Coq Require Import Ascii.
#[local] Open Scope string_scope.

(** /repo/colorschemes.py:17-78 Python dict, in the order of insertion *)
Definition dict (V : Type) : Type := list (string * V).
(** d[k]. (/repo/colorschemes.py:83-131) *)
Fixpoint dget {V} (d : dict V) (k : string) : option V :=
  match d with
  | [] => None
  | (k', v) :: d' => if decide (k' = k) then Some v else dget d' k
  end.
(** d[k] = v. (/repo/colorschemes.py:127-131) *)
Fixpoint dset {V} (d : dict V) (k : string) (v : V) : dict V :=
  match d with
  | [] => [(k, v)]
  | (k', w) :: d' => if decide (k' = k) then (k', v) :: d' else (k', w) :: dset d' k v
  end.
(** d.update(e). (/repo/causetplotting.py:30-39, 220, 238, 260, 277, 288) *)
Definition dupdate {V} (d e : dict V) : dict V := foldl (λ d '(k, v), dset d k v) d e.

(** /repo/causetplotting.py:206-289 the values of the parameters *)
Inductive pyval : Type :=
| VStr (s : string) | VBool (b : bool) | VNum (q : Q) | VNums (l : list Q).
(** /repo/colorschemes.py:17-78 *)
Definition scheme : Type := dict string.

(** /repo/colorschemes.py:18-31 *)
Definition scheme_matplotlib : scheme :=
  [("core", "tab:blue");
   ("black", "black");
   ("gray", "tab:gray");
   ("grey", "tab:gray");
   ("white", "snow");
   ("purple", "tab:purple");
   ("blue", "tab:blue");
   ("cyan", "tab:cyan");
   ("green", "tab:green");
   ("lime", "limegreen");
   ("yellow", "gold");
   ("orange", "tab:orange");
   ("red", "tab:red");
   ("pink", "tab:pink")].
(** /repo/colorschemes.py:35-49 *)
Definition scheme_UniYork : scheme :=
  [("core", "#00627D");
   ("black", "#25303B");
   ("gray", "#E7E2D3");
   ("grey", "#E7E2D3");
   ("white", "#E3E5E5");
   ("purple", "#9067A9");
   ("darkblue", "#00627D");
   ("blue", "#0095D6");
   ("cyan", "#00ABAA");
   ("green", "#65B32E");
   ("lime", "#CDD500");
   ("yellow", "#FBB800");
   ("orange", "#F18625");
   ("red", "#E62A32");
   ("pink", "#E2388D")].
(** /repo/colorschemes.py:53-77 *)
Definition scheme_ImperialLondon : scheme :=
  [("core", "#002147");
   ("black", "#002147");
   ("gray", "#EBEEEE");
   ("grey", "#EBEEEE");
   ("coolgrey", "#9D9D9D");
   ("white", "#D4EFFC");
   ("violet", "#960078");
   ("iris", "#751E66");
   ("purple", "#653098");
   ("plum", "#321E6D");
   ("navy", "#002147");
   ("darkblue", "#003E74");
   ("blue", "#006EAF");
   ("cyan", "#009CBC");
   ("green", "#02893B");
   ("kermitgreen", "#66A40A");
   ("lime", "#BBCEOO");
   ("yellow", "#FFDD00");
   ("tangerine", "#EC7300");
   ("orange", "#D24000");
   ("cherry", "#E40043");
   ("red", "#DD2501");
   ("brick", "#A51900");
   ("pink", "#C81E78");
   ("raspberry", "#9F004E")].
(** /repo/colorschemes.py:17-78 *)
Definition ColorSchemes : list (string * scheme) :=
  [("matplotlib", scheme_matplotlib); ("UniYork", scheme_UniYork); ("ImperialLondon", scheme_ImperialLondon)].

(** s.startswith('cs:') with the rest s[3:]. (/repo/colorschemes.py:109-131) *)
Definition cs_rest (s : string) : option string :=
  match s with
  | String a (String b (String c r)) =>
    if decide (a = "c"%char ∧ b = "s"%char ∧ c = ":"%char) then Some r else None
  | _ => None
  end.

(** /repo/colorschemes.py:83-91 (pickColorScheme) *)
Definition pickColorScheme (name : string) : res scheme :=
  match dget ColorSchemes name with Some cs => Ok cs | None => Err ValueError end.
(** /repo/colorschemes.py:94-99 (setGlobalColorScheme); [g] is __global_color_scheme, which is
    scheme_matplotlib at first (line 80). *)
Definition setGlobalColorScheme (name : string) (g : scheme) : scheme * res unit :=
  match pickColorScheme name with Ok cs => (cs, Ok tt) | Err e => (g, Err e) end.
(** /repo/colorschemes.py:113-114, 125-126, 139-140 *)
Definition get_scheme (g : scheme) (name : option string) : res scheme :=
  match name with None => Ok g | Some n => pickColorScheme n end.

(** /repo/colorschemes.py:109-117 (getColor) *)
Definition getColor (g : scheme) (color : string) (name : option string) : res string :=
  res_bind (get_scheme g name) (λ cs,
    match cs_rest color with
    | Some n => match dget cs n with Some c => Ok c | None => Err KeyError end
    | None => Ok color
    end).

(** /repo/colorschemes.py:127-131: the dict is changed in place; what was assigned before an
    exception stays. *)
Fixpoint convert_items (cs : scheme) (d : dict pyval) : dict pyval * res unit :=
  match d with
  | [] => ([], Ok tt)
  | (k, v) :: d' =>
    match (match v with VStr s => cs_rest s | _ => None end) with
    | None => let '(d2, r) := convert_items cs d' in ((k, v) :: d2, r)
    | Some n =>
      match dget cs n with
      | None => (d, Err KeyError)
      | Some c => let '(d2, r) := convert_items cs d' in ((k, VStr c) :: d2, r)
      end
    end
  end.
(** /repo/colorschemes.py:120-131 (convertColorsInDict): the dict afterwards and the returned
    dict, which is the same object. *)
Definition convertColorsInDict (g : scheme) (d : dict pyval) (name : option string)
    : dict pyval * res (dict pyval) :=
  match get_scheme g name with
  | Err e => (d, Err e)
  | Ok cs => let '(d', r) := convert_items cs d in (d', res_map (λ _, d') r)
  end.
(** /repo/colorschemes.py:134-145 (convertColorsInList), for lists of strings. *)
Fixpoint convert_list (cs : scheme) (l : list string) : list string * res unit :=
  match l with
  | [] => ([], Ok tt)
  | s :: l' =>
    match cs_rest s with
    | None => let '(l2, r) := convert_list cs l' in (s :: l2, r)
    | Some n =>
      match dget cs n with
      | None => (l, Err KeyError)
      | Some c => let '(l2, r) := convert_list cs l' in (c :: l2, r)
      end
    end
  end.
(** /repo/colorschemes.py:134-145 *)
Definition convertColorsInList (g : scheme) (l : list string) (name : option string)
    : list string * res (list string) :=
  match get_scheme g name with
  | Err e => (l, Err e)
  | Ok cs => let '(l', r) := convert_list cs l in (l', res_map (λ _, l') r)
  end.

(** /repo/causetplotting.py:21-27 (default_colors) *)
Definition default_colors0 : dict pyval :=
  [("links", VStr "cs:blue"); ("linksedge", VStr "cs:blue"); ("linksface", VStr "cs:cyan");
   ("eventsedge", VStr "cs:black"); ("eventsface", VStr "cs:core");
   ("conesedge", VStr "cs:yellow"); ("conesface", VStr "cs:yellow")].
(** /repo/causetplotting.py:30-39 (setDefaultColors); the state is the global scheme and
    default_colors. *)
Definition setDefaultColors (name : string) (kwargs : dict pyval) (st : scheme * dict pyval)
    : (scheme * dict pyval) * res unit :=
  match setGlobalColorScheme name (fst st) with
  | (g, Err e) => ((g, snd st), Err e)
  | (g, Ok _) => ((g, dupdate (snd st) kwargs), Ok tt)
  end.
