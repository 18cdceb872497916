(** Model of the plugins that come with LampPost as the application sees them when it starts: src/plugins/sysinfo/SysInfo.cpp,
    SysInfo.h ("SysInfo"), src/plugins/link/Link.cpp, Link.h ("Link"), include/lamppost/plugin/PluginInstance.h ("PluginInstance.h").

    Simplifications: those of LinkModel. On a bus that is attached, making publishers, subscribers and an action provider does not
    throw (C19, C78), nor does logging. *)
From Coq Require Import String List Bool.
From Verif Require Import Prelude DatagramModel PluginModel LinkModel.
Import ListNotations.
Open Scope list_scope.

(** SysInfo.h:41-44, Link.h:56-59: what CreateInfo reports. *)
Inductive shipped : Type := SysInfo | Link.
Definition identifier (p : shipped) : string := match p with SysInfo => "SysInfo" | Link => "Link" end.

(** What Initialize makes of the configuration: mSendDatagram, or the calls of zmq functions. *)
Inductive settings : Type := Sends (on : bool) | Calls (l : list zcall).

(** SysInfo:17-43, Link:18-71, on the configuration datagram at [l]. *)
Definition initialize (p : shipped) (h : heap) (l : loc) : res settings :=
  match p with
  | SysInfo => res_map Sends (get_bool h l "send-datagram" false)                       (* SysInfo:42 *)
  | Link => res_map Calls (link_setup h l)
  end.

(** CreateInstance is [new] of the plugin's class (PluginInstance.h:32-36); the instance is initialised next (LampPost.cpp:56).
    [None]: undefined. *)
Definition brings (p : shipped) (h : heap) (l : loc) : option (created * option exc) :=
  match initialize p h l with
  | Ok _ => Some (CrObject, None)
  | Throw x => Some (CrObject, Some x)
  | _ => None
  end.
