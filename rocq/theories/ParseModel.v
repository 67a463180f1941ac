(** Model of the transmission parser (transmission_interface/src/transmission_parser.cpp)
    on XML trees.  Turning text into trees is TinyXML's job and not modelled. *)
From Verif Require Export HwTypes SMap.
Local Open Scope string_scope.

(** A TiXmlNode: an element with attributes and children, a text, or something else
    (comment, declaration, unknown) (as used at transmission_parser.cpp:53-113). *)
Inductive node :=
| Elem (tag : string) (attrs : list (string * string)) (kids : list node)
| Text (s : string)
| Other.

(** Outcome of [doc.Parse(urdf)] (transmission_parser.cpp:45-50) and [doc.RootElement()]
    (53): an error, a document without any element (for example only an XML declaration),
    or a document with a first element. *)
Inductive document := Malformed | NoElement | Root (root : node).

(** TinyXML [FirstChildElement]/[NextSiblingElement] with a tag: the child elements with
    that tag in document order (transmission_parser.cpp:57-58, 127-128, 157-158 and so on). *)
Definition children (tag : string) (n : node) : list node :=
  match n with
  | Elem _ _ kids => filter (fun k => match k with Elem t _ _ => String.eqb t tag | _ => false end) kids
  | _ => []
  end.
(** TinyXML [FirstChildElement] (transmission_parser.cpp:79, 149). *)
Definition first_child (tag : string) (n : node) : option node :=
  match children tag n with [] => None | k :: _ => Some k end.
(** TinyXML [Attribute]; attribute names are unique in a parsed element (transmission_parser.cpp:63-65, 134-136, 206-208). *)
Definition attribute (key : string) (n : node) : option string :=
  match n with Elem _ attrs _ => sfind key attrs | _ => None end.
(** TinyXML [GetText]: the text of the first child, if that is a text; null otherwise
    (transmission_parser.cpp:86, 92, 152, 161, 167, 227, 233). *)
Definition get_text (n : node) : option string :=
  match n with Elem _ _ (Text s :: _) => Some s | _ => None end.

(** transmission_info.h:57-63 [JointInfo].  [xml_element_] is the printed element; here the element itself. *)
Record joint_info := mkJInfo { ji_name : string; ji_ifaces : list string; ji_role : string; ji_xml : node }.
(** transmission_info.h:68-73 [ActuatorInfo]; the same remark. *)
Record actuator_info := mkAInfo { ai_name : string; ai_ifaces : list string; ai_xml : node }.
(** transmission_info.h:78-84 [TransmissionInfo]. *)
Record transmission_info := mkTInfo {
  ti_name : string; ti_type : string; ti_joints : list joint_info; ti_actuators : list actuator_info }.

(** transmission_parser.cpp:157-169, 223-235: the texts of the hardwareInterface children that have one. *)
Fixpoint texts (l : list node) : list string :=
  match l with
  | [] => []
  | n :: l' => match get_text n with None => texts l' | Some s => s :: texts l' end
  end.

(** The loop of transmission_parser.cpp:127-184 over the joint elements; [None]: return false (143). *)
Fixpoint joints_loop (l : list node) (acc : list joint_info) : option (list joint_info) :=
  match l with
  | [] => Some acc
  | n :: l' =>
      match attribute "name" n with
      | None => None
      | Some name =>
          if String.eqb name "" then joints_loop l' acc else
          let role := match first_child "role" n with
                      | None => ""
                      | Some r => match get_text r with None => "" | Some s => s end end in
          let ifaces := texts (children "hardwareInterface" n) in
          match ifaces with
          | [] => joints_loop l' acc
          | _ => joints_loop l' (acc ++ [mkJInfo name ifaces role n])
          end
      end
  end.
(** transmission_parser.cpp:123-193 [parseJoints]. *)
Definition parse_joints (trans : node) : option (list joint_info) :=
  match joints_loop (children "joint" trans) [] with
  | None => None
  | Some [] => None
  | Some l => Some l
  end.

(** The loop of transmission_parser.cpp:199-250 over the actuator elements. *)
Fixpoint actuators_loop (l : list node) (acc : list actuator_info) : option (list actuator_info) :=
  match l with
  | [] => Some acc
  | n :: l' =>
      match attribute "name" n with
      | None => None
      | Some name =>
          if String.eqb name "" then actuators_loop l' acc else
          actuators_loop l' (acc ++ [mkAInfo name (texts (children "hardwareInterface" n)) n])
      end
  end.
(** transmission_parser.cpp:195-259 [parseActuators]. *)
Definition parse_actuators (trans : node) : option (list actuator_info) :=
  match actuators_loop (children "actuator" trans) [] with
  | None => None
  | Some [] => None
  | Some l => Some l
  end.

(** The body of the loop of transmission_parser.cpp:57-113; [None]: one of the [continue]s. *)
Definition parse_transmission (n : node) : option transmission_info :=
  match attribute "name" n with
  | None => None
  | Some name =>
      if String.eqb name "" then None else
      match first_child "type" n with
      | None => None
      | Some ty =>
          match get_text ty with
          | None => None
          | Some type =>
              match parse_joints n with
              | None => None
              | Some joints =>
                  match parse_actuators n with
                  | None => None
                  | Some actuators => Some (mkTInfo name type joints actuators)
                  end
              end
          end
      end
  end.

(** The loop of transmission_parser.cpp:57-113. *)
Fixpoint transmissions_loop (l : list node) (acc : list transmission_info) : list transmission_info :=
  match l with
  | [] => acc
  | n :: l' => match parse_transmission n with
               | None => transmissions_loop l' acc
               | Some t => transmissions_loop l' (acc ++ [t])
               end
  end.

(** Result of a call: normal return of a value, or undefined behaviour (transmission_parser.cpp:42-121). *)
Inductive parsed := ParseReturns (ok : bool) (transmissions : list transmission_info) | ParseUndefined.

(** transmission_parser.cpp:42-121 [TransmissionParser::parse]; [before] is the content of the
    output vector at the call, which is kept.  Without root element [root] is null at 57. *)
Definition parse (doc : document) (before : list transmission_info) : parsed :=
  match doc with
  | Malformed => ParseReturns false before
  | NoElement => ParseUndefined
  | Root root => ParseReturns true (transmissions_loop (children "transmission" root) before)
  end.
