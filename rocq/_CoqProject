-Q theories Verif
theories/CrcModel.v
theories/CrcSpec.v
theories/CrcProofs.v
theories/CrcProps.v
theories/LruModel.v
theories/LruSpec.v
theories/LruProofs.v
theories/LruProps.v
theories/CBase.v
theories/TimestampModel.v
theories/TimestampProofs.v
theories/TimestampProps.v
theories/TraceModel.v
theories/TraceSpec.v
theories/TraceProofs.v
theories/TraceProps.v
theories/Buf.v
theories/UwbModel.v
theories/UwbSpec.v
theories/UwbProofs.v
theories/UwbProps.v
theories/EnumModel.v
theories/EnumSpec.v
theories/EnumProofs.v
theories/EnumProps.v
theories/MotorModel.v
theories/MotorSpec.v
theories/MotorProofs.v
theories/MotorProps.v
theories/CmpModel.v
theories/CmpSpec.v
theories/CmpProofs.v
theories/CmpProps.v
theories/ParamModel.v
theories/ParamSpec.v
theories/ParamProofs.v
theories/ParamProofs2.v
theories/ParamProps.v
theories/BusModel.v
theories/BusSpec.v
theories/BusProofs.v
theories/BusProofs2.v
theories/BusProps.v
theories/RaftModel.v
theories/RaftSpec.v
theories/RaftProofs.v
theories/RaftProofs2.v
theories/RaftProofs3.v
theories/RaftProps.v
theories/RaftTimeSpec.v
theories/RaftProofs4.v
theories/RaftProps2.v
theories/CRes.v
theories/DijkModel.v
theories/DijkSpec.v
theories/DijkProofs.v
theories/DijkProps.v
theories/GoapModel.v
theories/GoapSpec.v
theories/GoapProofs.v
theories/GoapProofs2.v
theories/GoapProofs3.v
theories/GoapProofs4.v
theories/GoapProps.v
theories/OaModel.v
theories/OaSpec.v
theories/OaProofs.v
theories/OaProofs2.v
theories/OaProofs3.v
theories/OaProofs4.v
theories/OaProps.v
theories/PmsgModel.v
theories/PmsgSpec.v
theories/PmsgProofs.v
theories/PmsgProofs2.v
theories/PmsgProps.v
theories/PmsgLoadSpec.v
theories/PmsgProofs3.v
theories/PmsgProofs4.v
theories/PmsgProofs5.v
theories/PmsgProofs6.v
theories/PmsgProps2.v
theories/FlashModel.v
theories/FlashSpec.v
theories/FlashProofs.v
theories/FlashProofs2.v
theories/FlashProps.v
theories/EncModel.v
theories/EncSpec.v
theories/EncProofs.v
theories/EncProps.v
theories/StratModel.v
theories/StratSpec.v
theories/StratProofs.v
theories/StratProofs2.v
theories/StratProps.v
theories/SpiModel.v
theories/SpiSpec.v
theories/SpiProofs.v
theories/SpiProps.v
theories/QuadModel.v
theories/QuadSpec.v
theories/QuadProps.v
theories/ActModel.v
theories/ActSpec.v
theories/ActProofs.v
theories/ActProps.v
theories/ProxyModel.v
theories/ProxySpec.v
theories/ProxyProps.v
theories/MapModel.v
theories/MapSpec.v
theories/MapProofs.v
theories/MapProps.v
theories/FloatModel.v
theories/FloatSpec.v
theories/FloatProofs.v
theories/PidModel.v
theories/PidSpec.v
theories/PidProofs.v
theories/PidProps.v
theories/CtlModel.v
theories/CtlSpec.v
theories/CtlProofs.v
theories/CtlProps.v
theories/GeoModel.v
theories/GeoSpec.v
theories/GeoProofs.v
theories/GeoProofs2.v
theories/GeoProofs3.v
theories/GeoProofs4.v
theories/GeoProofs5.v
theories/GeoProps.v
theories/LieModel.v
theories/LieSpec.v
theories/LieProps.v
theories/PosModel.v
theories/PosSpec.v
theories/PosProofs.v
theories/PosProps.v
theories/BeaconModel.v
theories/BeaconSpec.v
theories/BeaconProofs.v
theories/BeaconProps.v
theories/TrajModel.v
theories/TrajSpec.v
theories/TrajProofs.v
theories/TrajProps.v
theories/GotoModel.v
theories/GotoSpec.v
theories/GotoProps.v
theories/AutoposModel.v
theories/AutoposSpec.v
theories/AutoposProps.v
theories/EkfModel.v
theories/EkfSpec.v
theories/EkfProofs.v
theories/EkfProps.v
theories/MadgModel.v
theories/MadgSpec.v
theories/MadgProofs.v
theories/MadgProps.v
theories/RangModel.v
theories/RangSpec.v
theories/RangProofs.v
theories/RangProofs2.v
theories/RangProps.v
theories/McanModel.v
theories/McanSpec.v
theories/McanProofs.v
theories/McanProofs2.v
theories/McanProps.v
theories/CtlLawSpec.v
theories/CtlLawProps.v
theories/CtlStartProps.v
theories/GeoLineSpec.v
theories/GeoLineProps.v
theories/CircModel.v
theories/CircSpec.v
theories/CircProps.v
theories/PosStartProps.v
theories/CmpFormSpec.v
theories/CmpFormProps.v
theories/TrajStartSpec.v
theories/TrajStartProps.v
theories/BeaconStartProps.v
theories/RangTimerProps.v
theories/OppModel.v
theories/OppSpec.v
theories/OppProofs.v
theories/OppProps.v
theories/UnitModel.v
theories/UnitSpec.v
theories/UnitProps.v
theories/MprotoModel.v
theories/MprotoSpec.v
theories/MprotoProofs.v
theories/UdpModel.v
theories/UdpSpec.v
theories/UdpProps.v
theories/MprotoProps.v
theories/CalibModel.v
theories/CalibSpec.v
theories/CalibProofs.v
theories/CalibProps.v
theories/ImuModel.v
theories/ImuSpec.v
theories/ImuProps.v
theories/MpuModel.v
theories/MpuSpec.v
theories/MpuProps.v
theories/PanelModel.v
theories/PanelSpec.v
theories/PanelProps.v
theories/MenuModel.v
theories/MenuSpec.v
theories/MenuProps.v
theories/ShowModel.v
theories/ShowSpec.v
theories/ShowProofs.v
theories/ShowProofs2.v
theories/ShowProps.v
theories/YgenModel.v
theories/YgenSpec.v
theories/YgenProofs.v
theories/YgenProofs2.v
theories/YgenProofs3.v
theories/YgenProofs4.v
theories/YgenProofs5.v
theories/YgenProps.v
theories/StrmModel.v
theories/StrmSpec.v
theories/StrmProofs.v
theories/StrmProofs2.v
theories/StrmProofs3.v
theories/StrmProps.v
theories/TpubModel.v
theories/TpubSpec.v
theories/TpubProofs.v
theories/TpubProofs2.v
theories/TpubProps.v
theories/TofModel.v
theories/TofSpec.v
theories/TofProofs.v
theories/TofProps.v
theories/CurvModel.v
theories/CurvSpec.v
theories/CurvProofs.v
theories/CurvProofs2.v
theories/CurvProofs3.v
theories/CurvProps.v
theories/HitlModel.v
theories/HitlSpec.v
theories/HitlProofs.v
theories/HitlProps.v
theories/LimModel.v
theories/LimSpec.v
theories/LimProofs.v
theories/LimProps.v
theories/UplModel.v
theories/UplSpec.v
theories/UplProofs.v
theories/UplProofs2.v
theories/UplProps.v
theories/StudModel.v
theories/StudSpec.v
theories/StudProofs.v
theories/StudProps.v
theories/CsendModel.v
theories/CsendSpec.v
theories/CsendProofs.v
theories/CsendProps.v
