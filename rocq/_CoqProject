-Q theories Verif

theories/Base.v
theories/M_Nexthop.v
theories/M_LinkState.v
theories/S_Graph.v
theories/L_Vec.v
theories/L_Dijkstra.v
theories/S_LinkState.v
theories/L_Matrix.v
theories/L_Nexthop.v
theories/L_LinkState.v
theories/L_LsTable.v
theories/L_Forward.v
theories/P_LinkState.v
theories/M_Tlv.v
theories/M_Adj.v
theories/M_Lsa.v
theories/M_Lsdb.v
theories/L_Lsdb.v
theories/S_Lsdb.v
theories/S_Notify.v
theories/L_Lsdb2.v
theories/L_Lsdb3.v
theories/L_Lsdb4.v
theories/L_Lsdb5.v
theories/L_Lsdb6.v
theories/L_Lsdb7.v
theories/L_Lsdb8.v
theories/L_Lsdb9.v
theories/L_Lsdb10.v
theories/L_Lsdb11.v
theories/L_Lsdb12.v
theories/L_Lsdb13.v
theories/X_Lsdb.v
theories/P_Lsdb.v
theories/P_Lsdb2.v
theories/M_Codec.v
theories/L_Codec.v
theories/S_Codec.v
theories/P_Codec.v
theories/M_Hello.v
theories/S_Hello.v
theories/L_Hello.v
theories/P_Hello.v
theories/P_Hello2.v
theories/P_Hello3.v
theories/P_Hello4.v
theories/M_Fib.v
theories/S_Fib.v
theories/L_Fib.v
theories/L_Fib2.v
theories/P_Fib.v
theories/P_Fib2.v
theories/P_Fib3.v
theories/P_Fib4.v
theories/M_Npt.v
theories/S_Npt.v
theories/L_Npt.v
theories/L_Npt2.v
theories/L_Npt3.v
theories/L_Npt4.v
theories/L_Npt5.v
theories/L_Npt6.v
theories/L_Npt7.v
theories/L_Npt8.v
theories/P_Npt.v
theories/P_Npt2.v
theories/S_Pipe.v
theories/P_Npt3.v
theories/P_Npt4.v
theories/M_Order.v
theories/P_Order.v
theories/M_Prefix.v
theories/S_Prefix.v
theories/L_Prefix.v
theories/P_Prefix.v
theories/P_Prefix2.v
theories/M_Hyperbolic.v
theories/S_Hyperbolic.v
theories/P_Hyperbolic.v
theories/M_RoutingTable.v
theories/M_Router.v
theories/S_Router.v
theories/L_Router.v
theories/L_Router2.v
theories/L_Router3.v
theories/L_Router4.v
theories/L_Router5.v
theories/L_Router6.v
theories/L_Router7.v
theories/L_Router8.v
theories/L_Router9.v
theories/X_Router.v
theories/P_Router.v
theories/P_Router2.v
theories/P_Router3.v
theories/M_Sync.v
theories/P_Sync.v
theories/P_Sync2.v
theories/P_Lsdb3.v
theories/S_Segments.v
theories/P_Segments.v
theories/M_Conf.v
theories/M_Main.v
theories/P_Conf.v
theories/P_Conf2.v
theories/M_Stats.v
theories/L_Stats.v
theories/P_Stats.v
theories/M_Cert.v
theories/P_Cert.v
theories/P_Cert2.v
theories/P_Router4.v
theories/S_Live.v
theories/L_Live.v
theories/P_Router5.v
theories/P_Router6.v
theories/S_Delivery.v
theories/P_Router7.v
theories/P_Router8.v
theories/P_Router9.v
theories/P_Router10.v
theories/L_Own.v
theories/P_Router11.v
theories/P_Router12.v
theories/P_Network3.v
theories/M_Network.v
theories/L_Network.v
theories/S_Network.v
theories/P_Network.v
theories/P_Network2.v
theories/L_Live2.v
theories/S_Forward.v
theories/P_Forward.v
theories/M_Trust.v
theories/S_Trust.v
theories/L_Trust.v
theories/P_Trust.v
theories/S_Auth.v
theories/P_Auth.v
theories/P_Main.v
theories/P_Main2.v
theories/M_Nlsrc.v
theories/S_Nlsrc.v
theories/P_Nlsrc.v
theories/M_Wire.v
theories/P_Wire.v
theories/M_Net.v
theories/S_Net.v
theories/L_Net.v
theories/L_Net2.v
theories/X_Net.v
theories/S_Conv.v
theories/P_Net.v
theories/P_Conv.v
theories/P_Net2.v
theories/P_Conv2.v
